{
 "claims": [
  {
   "property": "C01",
   "status": "proved",
   "theorems": [
    "C01_int_programs_exact",
    "C01_int_clear_no_leak"
   ],
   "note": "All straight-line isl_int programs with arbitrary aliasing refine exact integer arithmetic; no UB, no leaks. sub_ui limited to subtrahends <= 2^63-2^31+1 (see C04). IMath trusted."
  },
  {
   "property": "C02",
   "status": "proved",
   "theorems": [
    "C02_int_division_rounding",
    "C01_int_programs_exact"
   ],
   "note": "Rounding of tdiv/fdiv/cdiv quotients and floored remainder, all representations."
  },
  {
   "property": "C03",
   "status": "proved",
   "theorems": [
    "C03_int_observations",
    "C03_int_hash_representation_independent",
    "C03_digit_bytes"
   ],
   "note": "Comparisons, divisibility, conversions and hash depend only on the denoted integer."
  },
  {
   "property": "C04",
   "status": "partial",
   "theorems": [
    "C04_int_sub_ui_partial",
    "C04_int_sub_ui_refuted"
   ],
   "note": "Refuted as stated: 0 - (2^63+1) yields 2^63-1. Proved outside the faulty window."
  },
  {
   "property": "C05",
   "status": "partial",
   "theorems": [
    "C05_int_get_d_partial",
    "C05_int_get_d_refuted"
   ],
   "note": "Refuted as stated: get_d(2^32) = 1 (digits are accumulated in the wrong order). Proved for |z| < 2^32; floating point rounding not modelled."
  },
  {
   "property": "C06",
   "status": "proved",
   "theorems": [
    "C06_val_arithmetic_exact",
    "C06_val_operations_exact",
    "C06_val_2exp_exact",
    "C06_val_canonical_unique",
    "C06_val_zero_denominator_refuted"
   ],
   "note": "every expression over the isl_val operations yields the canonical representation of its extended-rational value; the constructor from n/0 is outside the contract (refuted example shows non-canonical infinity for 2/0)"
  },
  {
   "property": "C07",
   "status": "proved",
   "theorems": [
    "C07_val_special_values"
   ],
   "note": ""
  },
  {
   "property": "C08",
   "status": "proved",
   "theorems": [
    "C08_val_comparisons",
    "C08_val_order_total"
   ],
   "note": "isl_val_sgn of NaN is -1 in the code and excluded"
  },
  {
   "property": "C09",
   "status": "partial",
   "theorems": [
    "C09_val_mod",
    "C09_val_gcdext",
    "C09_val_is_divisible_by",
    "C09_val_non_integers_rejected",
    "C09_val_gcd_refuted",
    "C09_val_gcd_partial"
   ],
   "note": "isl_val_gcd returns a negative number for two equal negative arguments; everything else proved"
  },
  {
   "property": "C10",
   "status": "proved",
   "theorems": [
    "C10_val_print_read"
   ],
   "note": ""
  },
  {
   "property": "C11",
   "status": "partial",
   "theorems": [
    "C11_val_chunks_gmp",
    "C11_val_chunks_sioimath_refuted",
    "C11_val_chunks_sioimath_partial"
   ],
   "note": "GMP variant proved; the imath variant announces more chunks than it writes for small numbers"
  },
  {
   "property": "C12",
   "status": "proved",
   "theorems": [
    "C12_hash_table_is_a_map",
    "C12_hash_foreach_stops_on_error"
   ],
   "note": "All histories from isl_hash_table_init(min_size < 2^28) with fewer than 2^29 insertions, arbitrary hash function."
  },
  {
   "property": "C13",
   "status": "proved",
   "theorems": [
    "C13_sort_sorted_stable_permutation"
   ],
   "note": "All arrays and all total preorders; element size abstracted."
  },
  {
   "property": "C14",
   "status": "proved",
   "theorems": [
    "C14_tarjan_graph_init",
    "C14_tarjan_graph_component"
   ],
   "note": "All finite graphs with a callback that never fails; array bounds respected."
  },
  {
   "property": "C15",
   "status": "partial",
   "theorems": [
    "C15_tarjan_error_refuted",
    "C15_tarjan_error_partial"
   ],
   "note": "Refuted: errors in recursive calls are ignored (isl_tarjan.c:90). Proved: failure iff an error is reported at recursion depth 1."
  },
  {
   "property": "C16",
   "status": "partial",
   "theorems": [
    "C16_list_operations_refine_sequences",
    "C16_swap_out_of_range_refuted",
    "C16_to_int"
   ],
   "note": "All histories of ownership-respecting clients over add/insert/drop/clear/set/get/swap/reverse/map/concat/from/size/copy/free; the only deviation from the statement is that swap of equal out-of-range positions is accepted (C16_swap_out_of_range_refuted)."
  },
  {
   "property": "C17",
   "status": "proved",
   "theorems": [
    "C17_value_semantics"
   ],
   "note": "Any element type following the copy/cow/free pattern; memory allocation does not fail."
  },
  {
   "property": "C18",
   "status": "proved",
   "theorems": [
    "C18_live_iff_referenced",
    "C18_no_leaks",
    "C18_ptr_bytes"
   ],
   "note": "Allocated cells are exactly the referenced ones after every history; no leaks."
  },
  {
   "property": "C19",
   "status": "proved",
   "theorems": [
    "C19_identifiers_refine_interning",
    "C19_identifiers_unique",
    "C19_id_cmp_total_order"
   ],
   "note": "heap/table model with malloc/growth failure; reference counts unbounded"
  },
  {
   "property": "C20",
   "status": "proved",
   "theorems": [
    "C20_combine",
    "C20_elim",
    "C20_elim_factors",
    "C20_eq",
    "C20_cmp",
    "C20_is_neg",
    "C20_first_non_zero",
    "C20_last_non_zero",
    "C20_abs_max",
    "C20_abs_min_non_zero",
    "C20_gcd",
    "C20_normalize",
    "C20_lcm",
    "C20_inner_product",
    "C20_substitute",
    "C20_addmul",
    "C20_submul"
   ],
   "note": "All isl_seq_* functions except the hash: combinations and elimination, comparison, gcd/lcm/normalisation, inner product and the in-place substitution."
  },
  {
   "property": "C21",
   "status": "proved",
   "theorems": [
    "C21_left_hermite",
    "C21_rank",
    "C21_right_kernel",
    "C21_unimodular_complete",
    "C21_unimodular_complete_null",
    "C21_unimodular_complete_total"
   ],
   "note": "Left Hermite normal form with both reductions, plus rank, right kernel and unimodular completion."
  },
  {
   "property": "C22",
   "status": "partial",
   "theorems": [
    "C22_right_inverse_partial",
    "C22_right_inverse_minimal",
    "C22_right_inverse_no_rows_refuted",
    "C22_inverse_product",
    "C22_product",
    "C22_transpose",
    "C22_vec_product",
    "C22_vec_mat_product",
    "C22_normalize",
    "C22_is_scaled_identity"
   ],
   "note": "Right inverse (with minimal common denominator), inverse product, product, transposition, vector products, normalisation. isl_mat_right_inverse reads row[0][0] of a matrix without rows, so its theorem assumes at least one row."
  },
  {
   "property": "C23",
   "status": "proved",
   "theorems": [
    "C23_gauss",
    "C23_gauss_empty",
    "C23_order_divs",
    "C23_cyclic_definitions_diverge",
    "C23_set_to_empty",
    "C23_no_progress",
    "C23_set_div_known"
   ],
   "note": "isl_basic_map_gauss on basic maps with acyclic div definitions (the only ones isl constructs; cyclic definitions make the div ordering loop forever, C23_cyclic_definitions_diverge). Callbacks and the sample point are not modelled."
  },
  {
   "property": "C24",
   "status": "proved",
   "theorems": [
    "C24_normalize_points",
    "C24_normalize_relaxation",
    "C24_normalize_reduced",
    "C24_normalize_space"
   ],
   "note": "isl_basic_map_normalize_constraints: integer (rational for RATIONAL maps) points preserved, relaxation only shrinks, remaining rows reduced."
  },
  {
   "property": "C25",
   "status": "proved",
   "theorems": [
    "C25_remove_duplicate_constraints",
    "C25_empty",
    "C25_detect_inequality_pairs",
    "C25_better_div_constraint",
    "C25_ok_to_set_div_from_bound"
   ],
   "note": "Hash index with linear probing modelled for an arbitrary hash function; points, parallel and opposite inequalities, div definitions from bounds, detect_inequality_pairs."
  },
  {
   "property": "C26",
   "status": "partial",
   "theorems": [
    "C26_rational",
    "C26_sound",
    "C26_free",
    "C26_remove_redundancies",
    "C26_sort_constraints",
    "C26_tab_sound",
    "C26_rational_tab",
    "C26_sound_tab",
    "C26_remove_redundancies_tab",
    "C26_integer_flag_refuted"
   ],
   "note": "isl_basic_map_eliminate_vars for all well-formed basic maps, including the simplex tableau that removes redundant constraints: for RATIONAL maps a rational point is in the result iff the eliminated variables can be chosen rationally; soundness for integer maps; the result is free of the variables. Without the RATIONAL flag the iff is false (C26_integer_flag_refuted)."
  },
  {
   "property": "C27",
   "status": "partial",
   "theorems": [
    "C27_basic_intersect",
    "C27_basic_intersect_params_partial",
    "C27_basic_intersect_domain",
    "C27_basic_intersect_range",
    "C27_basic_reverse",
    "C27_basic_neg",
    "C27_basic_apply_range",
    "C27_basic_apply_domain",
    "C27_basic_product",
    "C27_basic_domain_product",
    "C27_basic_range_product",
    "C27_basic_sum",
    "C27_basic_project_out",
    "C27_basic_domain",
    "C27_basic_range",
    "C27_map_union",
    "C27_map_intersect",
    "C27_map_intersect_domain",
    "C27_map_intersect_range",
    "C27_map_reverse",
    "C27_map_neg",
    "C27_map_apply_range",
    "C27_map_apply_domain",
    "C27_map_product",
    "C27_map_domain_product",
    "C27_map_range_product",
    "C27_map_sum",
    "C27_map_project_out",
    "C27_map_domain",
    "C27_map_range",
    "C27_map_plain_equal",
    "C27_map_remove_obvious_duplicates",
    "C27_basic_apply_range_drop",
    "C27_basic_project_out_drop",
    "C27_map_apply_range_drop",
    "C27_map_apply_domain_drop",
    "C27_map_project_out_drop",
    "C27_map_domain_drop",
    "C27_map_range_drop",
    "C27_basic_intersect_params_refuted"
   ],
   "note": "Intersection, union, inverse, negation, composition, products, sum, projection, domain, range and restriction, on basic maps and on unions of them, for every hash function, every correct tableau and every correct sort. Missing: subtraction and complement (C28); isl_basic_map_is_empty is a parameter assumed to be right when it answers yes. isl_basic_map_drop_redundant_divs is a parameter assumed to keep the points; composition, projection, domain and range are also proved with the model of that function and of the tableau in its place, without assumptions (the theorems ending in _drop). isl_basic_map_intersect with a parameter domain that is marked empty returns that parameter domain, which has the wrong space (C27_basic_intersect_params_refuted)."
  },
  {
   "property": "C28",
   "status": "proved",
   "theorems": [
    "C28_subtract",
    "C28_complement",
    "C28_subtract_domain",
    "C28_subtract_range"
   ],
   "note": "Integer maps with the same space, for every hash function, every sound answers of the tableau (emptiness, redundancy, kinds of constraints), every one-sided sampler, every sound computation of explicit divs and every permutation by qsort. isl_map_make_disjoint and rational maps are not modelled."
  },
  {
   "property": "C29",
   "status": "partial",
   "theorems": [
    "C29_is_empty",
    "C29_is_disjoint",
    "C29_basic_is_disjoint",
    "C29_plain_is_disjoint",
    "C29_is_subset",
    "C29_is_equal",
    "C29_is_strict_subset",
    "C29_basic_is_subset",
    "C29_basic_is_equal"
   ],
   "note": "The tests are decisions relative to an exact test for integer points of basic maps (isl_basic_set_sample is a parameter, sound_sample and complete_sample) and, for the path of singletons, to ordered integer divisions of the second map. Missing: the sampler itself."
  },
  {
   "property": "C30",
   "status": "partial",
   "theorems": [
    "C30_uset_gist_partial",
    "C30_basic_map_gist_partial",
    "C30_map_gist_basic_map_partial",
    "C30_map_gist_partial",
    "C30_basic_map_gist_marked_refuted"
   ],
   "note": "uset_gist, isl_basic_map_gist, isl_map_gist_basic_map and isl_map_gist: the result has the same elements as the argument inside the context. Assumed: sound answers of the tableau and of the emptiness test, that the detection of implicit equalities, isl_basic_map_drop_redundant_divs and the computation of explicit divs keep the points, that gist_strides keeps the points inside the context, and that the hulls contain the map. Refuted: a gist that is marked empty has no elements according to its constraints (the mark of an empty context is kept when its constraint 1 = 0 is dropped)."
  },
  {
   "property": "C31",
   "status": "partial",
   "theorems": [
    "C31_rows",
    "C31_pivot",
    "C31_sample",
    "C31_add_ineq",
    "C31_add_eq",
    "C31_detect_equalities",
    "C31_detect_redundant",
    "C31_restore_redundant",
    "C31_sign_of_max",
    "C31_from_basic_map",
    "C31_from_gauss",
    "C31_redundancy_tab",
    "C31_add_valid_eq",
    "C31_add_eq_general",
    "C31_relax",
    "C31_relax_refused",
    "C31_relax_undo_refuted",
    "C31_relax_marks_refuted"
   ],
   "note": "For all tableaus and all pivot sequences: isl_tab_pivot, add_ineq, add_eq (both the function for tableaus without inequalities and isl_tab_add_eq), isl_tab_add_valid_eq, relax, detect_implicit_equalities, detect_redundant, restore_redundant and isl_tab_from_basic_map keep the affine relation and the set of points, marks and emptiness are justified by the constraints, the sample value satisfies all constraints. isl_tab_relax needs undo information (C31_relax_undo_refuted: otherwise it may access row -1) and keeps the redundancy marks even if they are no longer implied (C31_relax_marks_refuted); C31_relax assumes that they are; C31_relax_refused: redundant constraints and equalities in columns are refused. Missing: isl_tab_relax when marks become invalid (only the affine relation could hold), isl_tab_select_facet."
  },
  {
   "property": "C32",
   "status": "partial",
   "theorems": [
    "C32_rollback_partial",
    "C32_nested",
    "C32_add_ineqs",
    "C32_restore_basis"
   ],
   "note": "for all sequences of the primitive steps of UndoSpec.reach (pivots, redundant marks, killed columns, added rows, flags, nested rollbacks) rollback restores the constraints, flags, rows, columns and stack; isl_tab_add_ineq shown to be such a sequence. Missing: the same for the detections and isl_tab_add_eq, rows redundant only for integer points, records for inserted variables, relaxed constraints; undoing a record of a saved basis is proved to succeed and to restore the variables of the columns (C32_restore_basis), but not as one step of a sequence"
  },
  {
   "property": "C33",
   "status": "partial",
   "theorems": [
    "C33_tab_min",
    "C33_sample_value",
    "C33_basic_map_solve_lp",
    "C33_unbounded",
    "C33_map_solve_lp",
    "C33_basic_set_solve_ilp",
    "C33_solve_lp_divs_refuted",
    "C33_map_solution_refuted"
   ],
   "note": "LP: isl_tab_min, isl_tab_get_sample_value, isl_basic_map_solve_lp and the value of isl_map_solve_lp proved; an objective on local variables and the solution of isl_map_solve_lp are refuted. ILP: proved relative to contracts for isl_basic_set_sample_vec and isl_basic_set_remove_equalities; termination (fuel) is not proved."
  },
  {
   "property": "C34",
   "status": "partial",
   "theorems": [
    "C34_basic_set_scan",
    "C34_foreach_point",
    "C34_count_val",
    "C34_count_upto",
    "C34_basic_count_upto",
    "C34_scan_0D_refuted",
    "C34_count_unbounded_refuted"
   ],
   "note": "Every point once and exact count, for every bounded set, relative to contracts on the tableau, the basis reduction and make_disjoint; an empty 0-dimensional basic set and unbounded counts are refuted."
  },
  {
   "property": "C35",
   "status": "partial",
   "theorems": [
    "C35_sum",
    "C35_mul",
    "C35_pow",
    "C35_add_int",
    "C35_mul_int",
    "C35_mul_int_reduced_refuted",
    "C35_mul_int_equal_refuted",
    "C35_scale",
    "C35_mul_infty_refuted",
    "C35_canonical_unique",
    "C35_is_equal",
    "C35_plain_cmp_eq",
    "C35_plain_cmp_anti",
    "C35_plain_cmp_trans",
    "C35_is_zero",
    "C35_is_one",
    "C35_is_negone",
    "C35_var_pow",
    "C35_reorder",
    "C35_expand",
    "C35_constant",
    "C35_subs",
    "C35_from_affine",
    "C35_from_affine_refuted",
    "C35_is_affine",
    "C35_extract_affine",
    "C35_eval",
    "C35_coeff",
    "C35_coeff_free",
    "C35_coeff_refuted",
    "C35_den",
    "C35_active",
    "C35_occurs",
    "C35_occurs_effect",
    "C35_drop",
    "C35_terms",
    "C35_from_term",
    "C35_degree",
    "C35_degree_zero",
    "C35_homogenize",
    "C35_homogenize_refuted",
    "C35_qp_defined",
    "C35_extend_point",
    "C35_merge_divs",
    "C35_qp_add",
    "C35_qp_sub",
    "C35_qp_mul",
    "C35_qp_spaces",
    "C35_qp_add_int",
    "C35_qp_mul_int",
    "C35_qp_neg",
    "C35_qp_scale",
    "C35_qp_pow",
    "C35_qp_eval",
    "C35_qp_eval_void",
    "C35_qp_plain_is_equal",
    "C35_from_aff_refuted",
    "C35_sort_divs_refuted",
    "C35_move_dims_refuted",
    "C35_reduce_loop",
    "C35_substitute_non_divs",
    "C35_sort_divs_flat",
    "C35_reduce_divs_flat",
    "C35_remove_redundant_divs_flat",
    "C35_from_aff_flat",
    "C35_insert_dims",
    "C35_move_dims_flat"
   ],
   "note": "Polynomials (isl_poly) of any depth and degree: sum, product, power, scaling, evaluation, substitution, renaming, terms, degree, coefficients and homogenisation are pointwise correct and keep the canonical form, which is proved unique. Refuted parts: isl_poly_mul_isl_int and isl_poly_from_affine leave constants unreduced, isl_poly_coeff may return a non-canonical zero, isl_poly_homogenize is wrong for variables past \"last\", zero times infinity differs from isl_val. Quasi-polynomials with integer divisions: addition, subtraction, product, power, scaling, negation, evaluation and plain equality are covered; also insertion of variables, the reduction of the integer divisions and the substitution of those with denominator one; isl_qpolynomial_from_aff, isl_qpolynomial_move_dims and sort_divs are refuted when integer divisions refer to each other and proved when they do not (theorems ending in _flat). Missing: the piecewise and folded quasi-polynomials."
  },
  {
   "property": "C36",
   "status": "partial",
   "theorems": [
    "C36_add",
    "C36_defined",
    "C36_eval",
    "C36_eval_rational",
    "C36_eval_rational_div",
    "C36_eval_nan",
    "C36_zero",
    "C36_val",
    "C36_var",
    "C36_nan",
    "C36_get_constant",
    "C36_get_coefficient",
    "C36_changes",
    "C36_add_constant",
    "C36_add_constant_val",
    "C36_set_constant",
    "C36_set_constant_val",
    "C36_add_coefficient",
    "C36_add_coefficient_val",
    "C36_set_coefficient",
    "C36_set_coefficient_val",
    "C36_neg",
    "C36_scale",
    "C36_scale_down",
    "C36_scale_val",
    "C36_scale_down_val",
    "C36_floor",
    "C36_ceil",
    "C36_mod",
    "C36_sub",
    "C36_mul",
    "C36_div",
    "C36_div_alias_refuted",
    "C36_pullback",
    "C36_pullback_nan_refuted",
    "C36_pullback_nan_div_refuted",
    "C36_align_divs",
    "C36_nan_unary",
    "C36_nan_mod",
    "C36_nan_binary",
    "C36_add_nan_constant",
    "C36_plain_equal",
    "C36_plain_equal_nan"
   ],
   "note": "The value of the result of construction, neg, add, sub, scale, scale_down, floor, ceil, mod, mul, div, changes of coefficients and pullback (including the alignment of the integer divisions) is the operation on the values, for all expressions and integer points; NaN propagates through all of them except the pullback, where NaN may lead to a division by zero (refuted with two witnesses); isl_aff_div with arguments that share their coefficients may produce a negative denominator (refuted). Missing: aligning of parameters."
  },
  {
   "property": "C37",
   "status": "partial",
   "theorems": [
    "C37_function",
    "C37_eval",
    "C37_domain",
    "C37_neg",
    "C37_scale",
    "C37_scale_down",
    "C37_floor",
    "C37_ceil",
    "C37_mod",
    "C37_add",
    "C37_sub",
    "C37_mul",
    "C37_div",
    "C37_tdiv_q",
    "C37_tdiv_r",
    "C37_union_add",
    "C37_add_disjoint",
    "C37_intersect_domain",
    "C37_subtract_domain",
    "C37_sort_unique",
    "C37_coalesce",
    "C37_normalize",
    "C37_plain_is_equal",
    "C37_union_max",
    "C37_union_min",
    "C37_min",
    "C37_max",
    "C37_min_max_nan",
    "C37_pos_set",
    "C37_nonneg_set",
    "C37_zero_set",
    "C37_non_zero_set",
    "C37_eq_set",
    "C37_ge_set",
    "C37_le_set",
    "C37_gt_set_partial",
    "C37_lt_set_partial",
    "C37_ne_set_partial",
    "C37_select",
    "C37_cond_partial",
    "C37_indicator",
    "C37_set_operations",
    "C37_gt_set_refuted",
    "C37_cond_refuted"
   ],
   "note": "All operations are proved pointwise with the documented domains, for all piecewise expressions with disjoint pieces, relative to contracts on the set operations which C37_set_operations proves for the modelled ones. Missing: the strict comparisons gt_set/lt_set/ne_set are only exact where the difference is an integer (C37_gt_set_refuted: x/2 > 0 misses x = 1), and cond is only as documented if the condition has no NaN piece (C37_cond_refuted)."
  },
  {
   "property": "C38",
   "status": "partial",
   "theorems": [
    "C38_align_params",
    "C38_unnamed",
    "C38_has_named",
    "C38_alignment",
    "C38_alignment_injective",
    "C38_alignment_unnamed",
    "C38_extend",
    "C38_extend_space",
    "C38_bmap",
    "C38_bmap_env",
    "C38_bmap_unnamed",
    "C38_map",
    "C38_map_unnamed",
    "C38_aff",
    "C38_aff_unnamed",
    "C38_bmap_duplicate_refuted",
    "C38_dim_map_range"
   ],
   "note": "Spaces, basic maps, maps and affine expressions: the aligned object contains the same points (has the same value) for parameter values that agree on the names, for objects whose parameters are named and distinct; unnamed parameters are rejected. With duplicate names the statement is false (C38_bmap_duplicate_refuted). Missing: piecewise, multi, union and polynomial objects."
  },
  {
   "property": "C39",
   "status": "partial",
   "theorems": [
    "C39_reverse",
    "C39_reverse_twice",
    "C39_wrap",
    "C39_unwrap",
    "C39_unwrap_rejects",
    "C39_domain_range",
    "C39_map_from_domain_and_range",
    "C39_map_from_domain_and_range_rejects",
    "C39_from_domain",
    "C39_from_range",
    "C39_from_rejects",
    "C39_domain_map",
    "C39_range_map",
    "C39_join",
    "C39_curry",
    "C39_uncurry",
    "C39_uncurry_curry",
    "C39_curry_uncurry",
    "C39_curry_rejects",
    "C39_uncurry_rejects",
    "C39_range_curry",
    "C39_zip",
    "C39_zip_twice",
    "C39_zip_rejects",
    "C39_product_sets",
    "C39_product_maps",
    "C39_product_rejects",
    "C39_range_product",
    "C39_domain_product",
    "C39_factors",
    "C39_factors_reject",
    "C39_wrapped_parts",
    "C39_range_wrapped_parts",
    "C39_range_reverse",
    "C39_range_reverse_twice",
    "C39_range_reverse_rejects",
    "C39_params",
    "C39_set_from_params",
    "C39_flatten",
    "C39_is_equal",
    "C39_drop_dims",
    "C39_drop_params",
    "C39_map_from_set",
    "C39_is_domain",
    "C39_reverse_refuted",
    "C39_range_reverse_names_refuted",
    "C39_insert_dims",
    "C39_insert_params",
    "C39_insert_range",
    "C39_add_dims",
    "C39_has_equal_ids"
   ],
   "note": "All listed operations are characterised for all valid spaces nested to any depth, with their inverse laws and the shapes they reject. Two documented laws are false of the model: isl_space_reverse is the identity on a map whose tuples differ only in the names of dimensions inside wrapped relations (C39_reverse_refuted), and isl_space_range_reverse leaves the names of the outer dimensions in the old order (C39_range_reverse_names_refuted)."
  },
  {
   "property": "C40",
   "status": "partial",
   "theorems": [
    "C40_parse_back",
    "C40_value",
    "C40_unambiguous",
    "C40_macro_min",
    "C40_macro_max",
    "C40_macro_fdiv",
    "C40_macros_read",
    "C40_minus_minus_refuted",
    "C40_cond_cond_refuted",
    "C40_access_refuted",
    "C40_op_eqb",
    "C40_is_and",
    "C40_is_or",
    "C40_logic_parens"
   ],
   "note": "Proved for all printable expressions: right number of arguments, identifiers as names, and without the five combinations for which the property is false of the code (negation of a negation or negative integer, address of an address, conditional as condition of a conditional, call or access on a non-postfix expression, member of an integer); witnesses in the _refuted theorems. The value theorem is over unbounded integers."
  },
  {
   "property": "C41",
   "status": "partial",
   "theorems": [
    "C41_split_partial",
    "C41_split_members",
    "C41_insert",
    "C41_filter",
    "C41_band",
    "C41_tile",
    "C41_tile_legal",
    "C41_scale",
    "C41_sink",
    "C41_splice",
    "C41_splice_children",
    "C41_sequence",
    "C41_delete",
    "C41_outside",
    "C41_invariant",
    "C41_tile_total",
    "C41_map",
    "C41_anchored_refuted",
    "C41_tile_after_cut_refuted"
   ],
   "note": "Missing: expansion and extension nodes, grouping, grafting, order_before/order_after; isl_schedule_node_gist is a parameter with a contract. The field anchored is stale after isl_schedule_node_cut (refuted theorems)."
  },
  {
   "property": "C42",
   "status": "partial",
   "theorems": [
    "C42_sources",
    "C42_flow_partial",
    "C42_unique",
    "C42_complete"
   ],
   "note": "Proved for isl_access_info_compute_flow (value based and memory based): the reported dependences are exactly the last must-source of each read element, the may-sources after it, and the sinks without source. Missing: the interface on unions, restrict_fn, coscheduled. Uses excluded middle (Classical_Prop.classic)."
  },
  {
   "property": "C43",
   "status": "proved",
   "theorems": [
    "C43_next",
    "C43_limit",
    "C43_remaining",
    "C43_refuse",
    "C43_computation",
    "C43_alloc",
    "C43_alloc_failure_refuted",
    "C43_abort",
    "C43_max_operations",
    "C43_ref_deref",
    "C43_ref_overflow",
    "C43_free"
   ],
   "note": "isl_ctx.c: all histories of operations, allocations, aborts, resets and all limits; the no-partial-result part is stated for computations that stop at the first operation that is refused. Finding: an allocation failure inside isl_ctx_alloc_with_options dereferences ctx->opt = NULL (C43_alloc_failure_refuted)."
  },
  {
   "property": "C44",
   "status": "proved",
   "theorems": [
    "C44_final_variable_compression",
    "C44_parameter_compression",
    "C44_particular_solution"
   ],
   "note": "isl_mat_final_variable_compression (and isl_mat_variable_compression, its first = 0 case) and isl_mat_parameter_compression: bijections onto the integer solutions, emptiness detected, no failed assertion. The wrappers that apply them to basic sets are not part of the statement."
  },
  {
   "property": "C45",
   "status": "proved",
   "theorems": [
    "C45_simplify",
    "C45_simplify_tab",
    "C45_finalize"
   ],
   "note": "isl_basic_map_simplify (for every hash function and every correct tableau, in particular the modelled one) and isl_basic_map_finalize, for basic maps whose local variable definitions are acyclic and follow from the constraints. Termination of the simplification loop is not part of the statement."
  },
  {
   "property": "C46",
   "status": "proved",
   "theorems": [
    "C46_drop_redundant_divs",
    "C46_drop_redundant_divs_tab"
   ],
   "note": "isl_basic_map_drop_redundant_divs for every hash function and every correct tableau, in particular for the model of isl_tab.c, on basic maps whose local variable definitions are ordered and follow from the constraints and that do not have local variables if they are marked rational or empty. Termination of the recursion is not part of the statement."
  },
  {
   "property": "C47",
   "status": "proved",
   "theorems": [
    "C47_detect_equalities",
    "C47_detect_redundant",
    "C47_redundancy_tab"
   ],
   "note": "For all tableaus that represent their constraints, and for the tableau of isl_basic_map_remove_redundancies on all basic maps, with the fuel of the model as only proviso (no error return and no access out of range). The evidence for a constraint that is not reported is a rational point, as it is in the code. Not covered: constraints that were frozen with isl_tab_freeze_constraint, which the code skips on purpose."
  }
 ]
}