{"id": "C01", "title": "Integer arithmetic is exact across the small/big representation switch", "statement": "For every pair of isl_int values, in whatever internal representation each of them happens to be, isl_int_add/sub/mul/neg/abs/set/addmul/submul/addmul_ui/submul_ui/mul_si/mul_ui/add_ui/mul_2exp/pow_ui/gcd/lcm store exactly the mathematical integer result; no 32- or 64-bit overflow is ever visible.", "quantifier": "all integers (unbounded), all representations of both operands and of the destination, including destination aliasing an operand", "why_tests_cant": "The fast path is chosen per operand and per result magnitude; the number of (representation, sign, magnitude) combinations is infinite and the boundary cases sit at 2^31, 2^32, 2^63.", "anchors": ["isl_int_sioimath.h: isl_sioimath_add, isl_sioimath_mul, isl_sioimath_set_int64, isl_sioimath_try_demote, isl_sioimath_encode_small", "isl_int_sioimath.c: isl_sioimath_gcd, isl_sioimath_lcm"]}
{"id": "C02", "title": "Integer division rounds as its name says", "statement": "For every dividend and every non-zero divisor, tdiv_q/divexact truncates towards zero, fdiv_q floors, cdiv_q ceils and fdiv_r returns the remainder with the sign of the divisor such that q*d+r = n; the _ui variants agree.", "quantifier": "all integer pairs with non-zero divisor, all representations", "why_tests_cant": "Rounding fast paths add or subtract divisor-1 in 64-bit arithmetic for four sign combinations; only a proof covers all magnitudes.", "anchors": ["isl_int_sioimath.h: isl_sioimath_tdiv_q, isl_sioimath_fdiv_q, isl_sioimath_cdiv_q, isl_sioimath_fdiv_r, isl_sioimath_fdiv_q_ui, isl_sioimath_cdiv_q_ui"]}
{"id": "C03", "title": "Integer observations do not depend on representation", "statement": "Comparison, sign, absolute comparison, divisibility, fits_slong/fits_ulong, get_si/get_ui and the hash of an isl_int depend only on the integer it denotes, not on whether it is stored small or big.", "quantifier": "all integers and all of their representations", "why_tests_cant": "Equal numbers in different representations arise only after particular operation histories.", "anchors": ["isl_int_sioimath.h: isl_sioimath_cmp, isl_sioimath_cmp_si, isl_sioimath_abs_cmp, isl_sioimath_is_divisible_by, isl_sioimath_hash, isl_sioimath_fits_slong"]}
{"id": "C04", "title": "Subtracting an unsigned long from an isl_int is exact", "statement": "isl_int_sub_ui(r, i, j) stores i - j for every integer i and every unsigned long j.", "quantifier": "all integers i, all 64-bit unsigned j", "why_tests_cant": "The overflow guard is a comparison against a 64-bit constant; a wrong constant fails only for j near 2^63.", "anchors": ["isl_int_sioimath.h: isl_sioimath_sub_ui"]}
{"id": "C05", "title": "Conversion of an isl_int to double returns the number", "statement": "isl_int_get_d (and isl_val_get_d) returns the value of the number (up to floating-point rounding), in particular it is exact for every integer that a double represents exactly and that the conversion steps do not round.", "quantifier": "all integers", "why_tests_cant": "Numbers above one digit use a different code path.", "anchors": ["isl_int_sioimath.h: isl_sioimath_get_d", "isl_val.c: isl_val_get_d"]}
{"id": "C06", "title": "isl_val arithmetic is exact extended-rational arithmetic in canonical form", "statement": "Every isl_val operation (add, sub, mul, div, neg, inv, abs, add_ui, sub_ui, mul_ui, div_ui, floor, ceil, trunc, 2exp, min, max) applied to normalized values returns a normalized value (denominator positive and coprime to the numerator, or one of +oo, -oo, NaN) equal to the mathematical result; two values are equal as rationals iff their stored numerators and denominators coincide.", "quantifier": "all pairs of normalized values, all unsigned long arguments", "why_tests_cant": "Infinite domain with eight special-case branches per operation.", "anchors": ["isl_val.c: isl_val_add, isl_val_sub, isl_val_mul, isl_val_div, isl_val_normalize, isl_val_inv, isl_val_floor, isl_val_pow2"]}
{"id": "C07", "title": "isl_val special values follow extended-real rules", "statement": "NaN is absorbing for all arithmetic; oo-oo, 0*oo, oo/oo and x/0 give NaN; infinities otherwise behave as in the extended reals; rounding leaves infinities and NaN unchanged.", "quantifier": "all values including NaN and infinities", "why_tests_cant": "The order of the special-case checks matters for every combination of argument kinds.", "anchors": ["isl_val.c: isl_val_add, isl_val_mul, isl_val_div, isl_val_inv"]}
{"id": "C08", "title": "isl_val comparisons form the usual order", "statement": "lt, le, gt, ge, eq, ne, abs_eq, cmp_si, eq_si, gt_si, sgn, is_pos... decide the order of the extended rationals on non-NaN values, and every comparison that involves NaN returns false.", "quantifier": "all pairs of normalized values", "why_tests_cant": "The comparisons cross-multiply unbounded integers and special-case the infinities.", "anchors": ["isl_val.c: isl_val_lt, isl_val_le, isl_val_eq, isl_val_ne, isl_val_cmp_si"]}
{"id": "C09", "title": "Integer functions on isl_val meet their definitions", "statement": "isl_val_mod returns the residue in [0,v2) (or (v2,0]) congruent to v1; isl_val_gcd returns the non-negative greatest common divisor; isl_val_gcdext returns g,x,y with x*v1+y*v2=g and g the non-negative gcd; is_divisible_by decides divisibility; non-integer arguments are rejected.", "quantifier": "all integer values", "why_tests_cant": "Euclid's loop and its sign corrections must be right for all sign combinations and sizes.", "anchors": ["isl_val.c: isl_val_mod, isl_val_gcd, isl_int_gcdext, isl_val_gcdext, isl_val_is_divisible_by"]}
{"id": "C10", "title": "Printing and re-reading a value is the identity", "statement": "Reading back the text printed for any isl_val yields an equal value (NaN, infinities, negative and rational values included).", "quantifier": "all normalized values", "why_tests_cant": "Unbounded numerators and denominators.", "anchors": ["isl_val.c: isl_printer_print_val", "isl_input.c: isl_stream_read_val", "isl_stream.c: isl_stream_next_token"]}
{"id": "C11", "title": "Chunk export and import of isl_val round-trip", "statement": "Storing the absolute numerator with isl_val_get_abs_num_chunks into an array of isl_val_n_abs_num_chunks chunks and reading that many chunks back with isl_val_int_from_chunks yields the absolute numerator, for every chunk size.", "quantifier": "all rational values, all chunk sizes, all previous contents of the array", "why_tests_cant": "Depends on how many chunks the exporter writes versus how many are announced.", "anchors": ["isl_val_sioimath.c: isl_val_get_abs_num_chunks, isl_val_n_abs_num_chunks, isl_val_int_from_chunks", "isl_val_gmp.c"]}
{"id": "C12", "title": "The hash table behaves as a finite map for every operation history", "statement": "After any sequence of find-or-reserve, lookup and remove operations, isl_hash_table_find returns the entry stored for a key iff it has been inserted and not removed since; growth and removal never lose or duplicate other entries, and foreach visits each live entry exactly once.", "quantifier": "all operation histories, all hash values (including full collisions), all table sizes", "why_tests_cant": "Open addressing with backward-shift deletion fails only for particular collision patterns that wrap around the table end.", "anchors": ["isl_hash.c: isl_hash_table_find, isl_hash_table_remove, grow_table, isl_hash_table_foreach"]}
{"id": "C13", "title": "Sorting returns a sorted stable permutation", "statement": "isl_sort rearranges the array into a permutation that is sorted with respect to the comparison function and keeps equal elements in their original order.", "quantifier": "all arrays of every length, all total preorders", "why_tests_cant": "The merge loop copies in batches and skips leading/trailing runs; failures depend on run structure.", "anchors": ["isl_sort.c: msort, isl_sort"]}
{"id": "C14", "title": "SCC decomposition is correct and topologically ordered", "statement": "isl_tarjan_graph_init partitions the nodes into the strongly connected components of the 'follows' relation, and if a node of one component follows a node of another component, then its component appears later in the result.", "quantifier": "all finite graphs", "why_tests_cant": "Correctness depends on the global DFS history; the number of graphs is super-exponential.", "anchors": ["isl_tarjan.c: isl_tarjan_components, isl_tarjan_graph_init, isl_tarjan_graph_component", "isl_list_templ.c: isl_*_list_foreach_scc"]}
{"id": "C15", "title": "An error in the edge callback aborts the SCC decomposition", "statement": "If the follows callback reports an error during isl_tarjan_graph_init, then the decomposition fails (returns NULL) rather than returning components.", "quantifier": "all callbacks and all points at which they fail", "why_tests_cant": "The failing call can be at any recursion depth.", "anchors": ["isl_tarjan.c: isl_tarjan_components"]}
{"id": "C16", "title": "List operations refine sequence operations", "statement": "isl_*_list_add, insert, drop, clear, set, swap, reverse, concat, map, get, size behave as the corresponding operations on finite sequences, with out-of-range positions rejected.", "quantifier": "all lists, positions and operation histories", "why_tests_cant": "In-place and copying code paths are chosen by reference counts and spare capacity.", "anchors": ["isl_list_templ.c"]}
{"id": "C17", "title": "Objects have value semantics under copy-on-write", "statement": "Modifying an object through one reference never changes what another reference observes, for every interleaving of copy, modify and free operations; and no operation reads a freed object when the client respects __isl_take/__isl_keep/__isl_give.", "quantifier": "all histories of list operations by clients that respect the ownership annotations", "why_tests_cant": "Sharing patterns are unbounded; in-place update is chosen by reference count.", "anchors": ["isl_list_templ.c: cow, dup, copy, free, take, restore", "isl_val.c: isl_val_cow"]}
{"id": "C18", "title": "Reference counting frees each object exactly once", "statement": "An object is released exactly when its last reference is freed, together with the references it holds; after all references are gone nothing is left allocated.", "quantifier": "all histories respecting ownership annotations", "why_tests_cant": "Leaks and double frees depend on history.", "anchors": ["isl_list_templ.c: free", "isl_val.c: isl_val_free", "isl_ctx.c: isl_ctx_deref"]}
{"id": "C19", "title": "Identifiers are unique per context", "statement": "isl_id_alloc returns the same object for equal (name, user) pairs as long as a reference is alive and different objects for different pairs; the free_user callback runs exactly once, when the last reference is freed.", "quantifier": "all histories of alloc/copy/free", "why_tests_cant": "Depends on hash collisions and on the history of frees.", "anchors": ["isl_id.c: isl_id_alloc, isl_id_copy, isl_id_free, isl_id_has_name_and_user"]}
{"id": "C20", "title": "Sequence (vector) primitives compute linear combinations", "statement": "isl_seq_combine, isl_seq_elim, isl_seq_scale, isl_seq_scale_down, isl_seq_inner_product, isl_seq_gcd, isl_seq_normalize, isl_seq_abs_max, isl_seq_first_non_zero etc. compute what their names say; elim zeroes the pivot position and the new row is a combination of both rows with a positive multiplier of the eliminated row.", "quantifier": "all vectors of all lengths", "why_tests_cant": "Unbounded lengths and values; the fast paths for +-1 multipliers.", "anchors": ["isl_seq.c"]}
{"id": "C21", "title": "Hermite normal form", "statement": "isl_mat_left_hermite(M, neg, &U, &Q) returns H with M*U = H, H lower-trapezoidal with positive pivots and reduced off-pivot entries, U unimodular and Q its inverse.", "quantifier": "all integer matrices, both values of neg", "why_tests_cant": "The loop exchanges and combines columns until a gcd is isolated; correctness is by invariant and well-founded termination.", "anchors": ["isl_mat.c: isl_mat_left_hermite, exchange, subtract, oppose"]}
{"id": "C22", "title": "Matrix inverse, product and transpose are correct", "statement": "isl_mat_right_inverse and isl_mat_inverse_product return the scaled inverse/product over a common denominator; isl_mat_product, isl_mat_transpose, isl_mat_vec_product are the usual operations.", "quantifier": "all integer matrices of matching dimensions", "why_tests_cant": "Gaussian elimination with swaps and rescaling on unbounded integers.", "anchors": ["isl_mat.c: isl_mat_right_inverse, isl_mat_inverse_product, isl_mat_product, isl_mat_rank"]}
{"id": "C23", "title": "Gaussian elimination preserves the set of integer points", "statement": "isl_basic_map_gauss does not change the set of integer points described, leaves the equalities in echelon form, and marks the set empty only if it is.", "quantifier": "all constraint systems in any number of variables", "why_tests_cant": "The number of systems and pivots is unbounded.", "anchors": ["isl_map_simplify.c: isl_basic_map_gauss, isl_basic_map_gauss5, eliminate_var_using_equality", "isl_seq.c: isl_seq_elim"]}
{"id": "C24", "title": "Constraint normalization preserves the integer points", "statement": "Dividing a constraint by the gcd of its coefficients (flooring the constant of inequalities, declaring the set empty for equalities with non-divisible constant) does not change the set of integer points; it may only shrink the rational relaxation.", "quantifier": "all constraint systems", "why_tests_cant": "Integer tightening is only valid for integer points.", "anchors": ["isl_map_simplify.c: isl_basic_map_normalize_constraints, isl_basic_set_normalize_constraints"]}
{"id": "C25", "title": "Removal of duplicate and opposite constraints preserves the set", "statement": "isl_basic_map_remove_duplicate_constraints keeps the tightest of parallel inequalities, turns opposite inequalities with zero slack into equalities, and marks the set empty only when two opposite inequalities contradict each other; the integer points do not change.", "quantifier": "all constraint systems", "why_tests_cant": "The hash-based lookup and pairing depends on all constraints.", "anchors": ["isl_map_simplify.c: isl_basic_map_remove_duplicate_constraints"]}
{"id": "C26", "title": "Fourier-Motzkin elimination projects", "statement": "isl_basic_map_eliminate_vars yields a system satisfied by a rational point iff the eliminated variables can be chosen rationally; every integer point of the projection satisfies it.", "quantifier": "all systems and all sets of eliminated variables", "why_tests_cant": "Combination of all lower/upper bound pairs, any number.", "anchors": ["isl_map_simplify.c: isl_basic_map_eliminate_vars, isl_basic_set_eliminate_vars"]}
{"id": "C27", "title": "Set operations denote the set-theoretic operations", "statement": "For every pair of sets/maps: intersect, union, subtract, complement, reverse, domain, range, apply, product, project_out have exactly the points required by their set-theoretic definition.", "quantifier": "all sets (finite unions of constraint systems with existentially quantified variables) and all points", "why_tests_cant": "Infinite sets and unbounded dimension.", "anchors": ["isl_map.c: isl_map_intersect, isl_map_union, isl_basic_map_intersect, isl_map_reverse, isl_map_apply_range", "isl_map_subtract.c: isl_map_subtract"]}
{"id": "C28", "title": "Subtraction is exact set difference", "statement": "A point is in isl_set_subtract(A,B) iff it is in A and not in B.", "quantifier": "all unions A, B (B with known divs) and all points", "why_tests_cant": "The depth-first search over negated constraints is exponential in the number of constraints.", "anchors": ["isl_map_subtract.c: basic_map_collect_diff, isl_map_subtract"]}
{"id": "C29", "title": "Subset, equality, disjointness and emptiness tests are decisions", "statement": "isl_set_is_subset/is_equal/is_disjoint/is_empty return true iff the relation holds between the integer point sets.", "quantifier": "all pairs of sets", "why_tests_cant": "Infinite sets.", "anchors": ["isl_map_subtract.c: isl_map_is_subset", "isl_map.c: isl_map_is_equal, isl_map_is_disjoint, isl_map_is_empty"]}
{"id": "C30", "title": "Simplification in a context (gist) is sound", "statement": "isl_set_gist(A,C) intersected with C equals A intersected with C.", "quantifier": "all sets A and contexts C", "why_tests_cant": "Removal of any redundant-in-context constraint must be justified for all points.", "anchors": ["isl_map_simplify.c: isl_basic_map_gist, isl_map_gist"]}
{"id": "C31", "title": "Pivoting a simplex tableau preserves its meaning", "statement": "Every tableau operation (pivot, relax, add constraint, mark redundant, detect equalities) preserves the affine relation between variables and constraints stored in the tableau; the sample value satisfies all constraints when the tableau is feasible.", "quantifier": "all tableaus and pivot sequences", "why_tests_cant": "Unbounded sequences of pivots on unbounded integers with a per-row common denominator.", "anchors": ["isl_tab.c: isl_tab_pivot, isl_tab_add_row, isl_tab_add_ineq, isl_tab_add_eq, to_row, to_col"]}
{"id": "C32", "title": "Tableau rollback restores the represented constraint system", "statement": "After isl_tab_snap, any sequence of constraint additions, detections and eliminations followed by isl_tab_rollback leaves a tableau that represents exactly the constraints present at the snapshot.", "quantifier": "all operation sequences and snapshot nestings", "why_tests_cant": "Undo records are replayed in an arbitrary later pivot state.", "anchors": ["isl_tab.c: isl_tab_snap, isl_tab_rollback, perform_undo, isl_tab_push"]}
{"id": "C33", "title": "LP and ILP optimisation returns the true optimum", "statement": "isl_basic_set_solve_lp/isl_tab_min return ok with the exact optimum (or unbounded/empty) of the objective over the rational points; isl_basic_set_solve_ilp returns the exact optimum over the integer points.", "quantifier": "all systems and objectives", "why_tests_cant": "Optimality quantifies over all points.", "anchors": ["isl_tab.c: isl_tab_min", "isl_ilp.c: solve_ilp, isl_basic_set_solve_ilp", "isl_lp.c"]}
{"id": "C34", "title": "Enumeration visits every integer point exactly once", "statement": "isl_set_foreach_point/isl_basic_set_scan calls the callback exactly once for each integer point of a bounded set, and isl_set_count_val returns their number.", "quantifier": "all bounded sets", "why_tests_cant": "Unbounded size and dimension.", "anchors": ["isl_scan.c: isl_basic_set_scan, scan_0D", "isl_point.c: isl_set_foreach_point"]}
{"id": "C35", "title": "Quasi-polynomial arithmetic is pointwise", "statement": "Evaluating the sum, difference, negation, product, scaling or power of quasi-polynomials equals performing the operation on the evaluations; the stored representation stays canonical.", "quantifier": "all polynomials and all points", "why_tests_cant": "Polynomials are recursive structures of unbounded depth and degree.", "anchors": ["isl_polynomial.c: isl_poly_sum, isl_poly_mul, isl_poly_neg, isl_poly_pow, isl_poly_eval"]}
{"id": "C36", "title": "Affine expression arithmetic is pointwise", "statement": "isl_aff_add, sub, neg, scale, scale_down, floor, ceil, mod, add_constant, pullback evaluated at a point equal the operation on the evaluations, with NaN propagation.", "quantifier": "all affine expressions with integer divisions, all points", "why_tests_cant": "Unbounded coefficients and nested integer divisions.", "anchors": ["isl_aff.c: isl_aff_add, isl_aff_scale, isl_aff_floor, isl_aff_mod_val, isl_aff_ceil, isl_local_space_add_div"]}
{"id": "C37", "title": "Piecewise expression operations are pointwise", "statement": "On every point where both are defined, isl_pw_aff add/min/max/union_add/cond/tdiv_q/tdiv_r/comparison sets agree with the operations on the values; domains combine as documented.", "quantifier": "all piecewise expressions with disjoint pieces, all points", "why_tests_cant": "Number and shape of pieces is unbounded.", "anchors": ["isl_pw_templ.c: isl_pw_*_on_shared_domain, isl_pw_*_union_add", "isl_aff.c: isl_pw_aff_min, isl_pw_aff_tdiv_q, isl_pw_aff_cond"]}
{"id": "C38", "title": "Parameter alignment and reordering preserve meaning", "statement": "Aligning the parameters of an object to another space permutes and extends the parameters but the object denotes the same set/function of named parameters.", "quantifier": "all spaces with named parameters, all models", "why_tests_cant": "All permutations and extensions.", "anchors": ["isl_reordering.c: isl_parameter_alignment_reordering, isl_reordering_extend", "isl_space.c: isl_space_align_params"]}
{"id": "C39", "title": "Space transformations invert each other", "statement": "reverse, wrap/unwrap, curry/uncurry, product/factor_domain/factor_range, zip, range_reverse are inverse to each other as documented, and reject spaces of the wrong shape.", "quantifier": "all spaces (nested to any depth)", "why_tests_cant": "Arbitrary nesting.", "anchors": ["isl_space.c: isl_space_wrap, isl_space_unwrap, isl_space_curry, isl_space_uncurry, isl_space_zip, isl_space_product, isl_space_factor_domain"]}
{"id": "C40", "title": "Printed AST expressions parse back to the same tree", "statement": "The C text printed for an AST expression, read with C's precedence and associativity rules, denotes the same expression tree (up to the associativity isl itself relies on), so generated code computes the intended value.", "quantifier": "all AST expression trees", "why_tests_cant": "Parenthesization depends on every parent/child operator and position combination at every depth.", "anchors": ["isl_ast.c: sub_expr_need_parens, print_sub_expr_c, print_ast_expr_c, op_prec, op_left"]}
{"id": "C41", "title": "Schedule tree transformations preserve the instance order", "statement": "Splitting, tiling, sinking and inserting schedule tree nodes, and converting band nodes to members, preserve the order of statement instances documented for the transformation.", "quantifier": "all schedule trees and instances", "why_tests_cant": "Trees of unbounded depth.", "anchors": ["isl_schedule_tree.c", "isl_schedule_band.c: isl_schedule_band_tile, isl_schedule_band_split", "isl_schedule_node.c"]}
{"id": "C42", "title": "Dependence analysis finds the last write", "statement": "isl_union_access_info_compute_flow / isl_access_info_compute_flow relates each sink instance to exactly the last must-source instance preceding it in the schedule that accesses the same element, plus the may-sources after it; sinks without must-source are reported as may-have-no-source.", "quantifier": "all access relations and schedules", "why_tests_cant": "Quantifies over all instances.", "anchors": ["isl_flow.c: compute_val_based_dependences, compute_mem_based_dependences, last_source, intermediate_sources"]}
{"id": "C43", "title": "The operation limit stops a computation cleanly", "statement": "When max_operations is set, at most that many operations are performed; every operation after the limit fails with the quota error and no partial result is returned as success.", "quantifier": "all operation histories and limits", "why_tests_cant": "Every prefix of every computation is a possible abort point.", "anchors": ["isl_ctx.c: isl_ctx_next_operation, isl_ctx_reset_operations"]}
{"id": "C44", "title": "Variable and parameter compression are bijections on integer points", "statement": "isl_mat_variable_compression(B) / parameter_compression describe a bijection between the integer solutions of the equalities and all integer points of the lower-dimensional space; an empty system is detected.", "quantifier": "all systems of equalities", "why_tests_cant": "Quantifies over all integer points.", "anchors": ["isl_equalities.c: isl_mat_variable_compression, isl_mat_parameter_compression, isl_basic_set_remove_equalities"]}
{"id": "C45", "title": "Simplification and finalization keep the points of a basic map", "statement": "Whenever isl_basic_map_simplify or isl_basic_map_finalize returns a basic map, it contains exactly the integer points (the rational points for a basic map marked rational) of its argument, in the same space, and its local variables are again defined consistently with its constraints.", "quantifier": "all basic maps with acyclic local variable definitions that follow from the constraints", "why_tests_cant": "The simplification chains a dozen rewriting steps, each with its own arithmetic side conditions, and quantifies over all integer points of all systems.", "anchors": ["isl_map_simplify.c: isl_basic_map_simplify, reduce_div_coefficients, normalize_div_expressions, remove_duplicate_divs, eliminate_unit_divs, eliminate_divs_eq, eliminate_divs_ineq, normalize_divs, isl_basic_map_finalize, remove_redundant_divs"]}
{"id": "C46", "title": "Removing redundant integer divisions keeps the points of a basic map", "statement": "Whenever isl_basic_map_drop_redundant_divs returns a basic map, that basic map contains exactly the integer points of the argument, in the same space; its local variables are defined consistently with its constraints and each definition only involves earlier local variables.", "quantifier": "all basic maps with ordered local variable definitions that follow from the constraints and that, if they are marked rational or empty, do not have local variables", "why_tests_cant": "The function mixes case distinctions on bounds, a unimodular change of variables, coalescing of pairs of variables and an integer argument on pairs of bounds backed by linear programming; each holds for all integer points only by arithmetic side conditions.", "anchors": ["isl_map_simplify.c: isl_basic_map_drop_redundant_divs, isl_basic_map_drop_redundant_divs_ineq, drop_more_redundant_divs, int_between_bounds, coalesce_or_drop_more_redundant_divs, coalesce_divs, set_div_from_lower_bound, lower_bound_is_cst, preimage"]}
{"id": "C47", "title": "The tableau finds every implicit equality and every redundant constraint", "statement": "After isl_tab_detect_implicit_equalities, every inequality of a non-empty tableau that is neither frozen nor reported by isl_tab_is_equality or isl_tab_is_redundant is strictly positive at some rational point that satisfies all constraints.  After isl_tab_detect_redundant, every inequality that is neither frozen nor reported by these functions is needed: some rational point violates it, by at least one if the tableau is not marked rational, and satisfies all equalities and all other inequalities that are not reported redundant.  Hence every inequality that isl_basic_map_remove_redundancies keeps after consulting its tableau is needed in this sense.", "quantifier": "all tableaus, all constraints, all pivot sequences", "why_tests_cant": "The loops stop early as soon as the count of marked constraints drops to zero, and constraints lose their mark on the evidence of a single row or column; a missed constraint does not change the set of points, so no comparison of results reveals it.", "anchors": ["isl_tab.c: isl_tab_detect_implicit_equalities, isl_tab_detect_redundant, select_marked, may_be_equality, con_is_redundant, sign_of_max, sign_of_min, isl_tab_min_at_most_neg_one, min_is_manifestly_unbounded", "isl_convex_hull.c: isl_basic_map_remove_redundancies"]}
