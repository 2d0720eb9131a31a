{
 "claims": [
  {
   "property": "C01",
   "status": "proved",
   "theorems": [
    "C01_union_find_connectivity"
   ],
   "note": "Every history of union/find with in-range arguments; Python's negative indices not modelled."
  },
  {
   "property": "C02",
   "status": "proved",
   "theorems": [
    "C02_group_tuples_components"
   ],
   "note": "All lists of integer tuples, empty tuples included."
  },
  {
   "property": "C03",
   "status": "proved",
   "theorems": [
    "C03_avl_ordered_set"
   ],
   "note": "All insert/delete histories over integer keys, any value type."
  },
  {
   "property": "C04",
   "status": "proved",
   "theorems": [
    "C04_avl_balanced"
   ],
   "note": "Stored heights/balances exact at every wrapper, fib size bound, search cost at most height+1."
  },
  {
   "property": "C05",
   "status": "partial",
   "theorems": [
    "C05_avl_map_refuted",
    "C05_avl_delete_refuted",
    "C05_avl_assign_once_partial",
    "C05_avl_delete_partial"
   ],
   "note": "Refuted by code: a second assignment of a key is ignored, and deleting a node with two children leaves the successor key with the deleted key's value. Proved: one assignment per key without deletions works; a deletion changes at most the value of the successor key."
  },
  {
   "property": "C06",
   "status": "proved",
   "theorems": [
    "C06_cdll_ring",
    "C06_cdll_out_of_range"
   ],
   "note": "Also covers append_node, __setitem__ and removal by value when legal."
  },
  {
   "property": "C07",
   "status": "partial",
   "theorems": [
    "C07_insert_front_refuted"
   ],
   "note": "Refuted by code for every list with at least two items: insertion at 0 moves the old head to the end."
  },
  {
   "property": "C08",
   "status": "partial",
   "theorems": [
    "C08_remove_last_refuted",
    "C08_remove_absent_refuted",
    "C08_remove_present_partial"
   ],
   "note": "Refuted by code when the value is the only item or is absent; proved for present values in lists of two or more items."
  },
  {
   "property": "C09",
   "status": "proved",
   "theorems": [
    "C09_build",
    "C09_mixed"
   ],
   "note": ""
  },
  {
   "property": "C10",
   "status": "proved",
   "theorems": [
    "C10_nearest"
   ],
   "note": ""
  },
  {
   "property": "C11",
   "status": "partial",
   "theorems": [
    "C11_knn_partial",
    "C11_knn_one_partial",
    "C11_knn_refuted"
   ],
   "note": "Refuted by code: the far side is pruned although the heap holds fewer than k items, so fewer than min(k,n) points can come back. Proved: the answer is a sub-multiset of the stored points in order of distance, between 1 and k long, and exact for k = 1."
  },
  {
   "property": "C12",
   "status": "partial",
   "theorems": [
    "C12_delete_partial",
    "C12_delete_missing_partial",
    "C12_delete_tie_refuted"
   ],
   "note": "Refuted by code: equal keys may sit in the right subtree but the search goes left, so the point stays. Proved for points that pairwise differ on every axis on trees with intact split order, and for points that are not stored."
  },
  {
   "property": "C13",
   "status": "partial",
   "theorems": [
    "C13_box_lawful",
    "C13_rectangle_lawful",
    "C13_stale_boxes_refuted",
    "C13_sound_partial",
    "C13_complete_while_small_partial"
   ],
   "note": "Refuted by code: the boxes of inner nodes on the insertion path are not enlarged, so in a tree of more than two levels an inserted rectangle outside them is not found. Proved: every result is a stored rectangle that meets the query, with no repetition beyond multiplicity; and the result is complete as long as fewer than (max_children+1)*min_children rectangles were inserted."
  },
  {
   "property": "C14",
   "status": "proved",
   "theorems": [
    "C14_stores"
   ],
   "note": "All histories of stores with arbitrary tower heights; integer keys."
  },
  {
   "property": "C15",
   "status": "partial",
   "theorems": [
    "C15_delete_refuted",
    "C15_delete_loses_smaller",
    "C15_delete_smallest_partial"
   ],
   "note": "Refuted by code: _scan leaves prevs at the head for the levels of the found node, so deleting a key drops every smaller key from the list (universal theorem). Partial: missing keys and the smallest key."
  },
  {
   "property": "C16",
   "status": "proved",
   "theorems": [
    "C16_sum",
    "C16_sum_scalar",
    "C16_product",
    "C16_intersection",
    "C16_intersection_scalar",
    "C16_hull",
    "C16_hull_scalar",
    "C16_contains",
    "C16_contains_scalar"
   ],
   "note": "exact rationals"
  },
  {
   "property": "C17",
   "status": "partial",
   "theorems": [
    "C17_difference_refuted",
    "C17_difference_scalar_partial",
    "C17_scale_refuted",
    "C17_scale_div_refuted",
    "C17_quotient_partial",
    "C17_even_power_refuted",
    "C17_power_partial"
   ],
   "note": "Refuted by code: X-Y subtracts like bounds (sound only for a single-number Y); scaling by a negative number does not swap the bounds; even powers of an interval crossing zero lose zero. Quotients (0 not in Y), non-negative scaling, odd powers and scalar differences are proved."
  },
  {
   "property": "C18",
   "status": "proved",
   "theorems": [
    "C18_compare",
    "C18_strict",
    "C18_weak"
   ],
   "note": ""
  },
  {
   "property": "C19",
   "status": "proved",
   "theorems": [
    "C19_tight",
    "C19_tight_default",
    "C19_segment",
    "C19_empty"
   ],
   "note": ""
  },
  {
   "property": "C20",
   "status": "proved",
   "theorems": [
    "C20_overlap",
    "C20_overlap_3d",
    "C20_intersection",
    "C20_point"
   ],
   "note": "boxes with ordered bounds"
  },
  {
   "property": "C21",
   "status": "proved",
   "theorems": [
    "C21_segment",
    "C21_hit",
    "C21_clip"
   ],
   "note": "segments whose extents are zero or at least 1e-15; the rest is C76"
  },
  {
   "property": "C22",
   "status": "proved",
   "theorems": [
    "C22_quicksort",
    "C22_argsort"
   ],
   "note": "Exact rationals; int overflow and stack depth not modelled."
  },
  {
   "property": "C23",
   "status": "proved",
   "theorems": [
    "C23_unique",
    "C23_unique_sorted"
   ],
   "note": "The result=None call of unique; realloc of the numpy buffer is taken to stay in place."
  },
  {
   "property": "C24",
   "status": "proved",
   "theorems": [
    "C24_binomial_counts"
   ],
   "note": "The whole table; values exact in double precision (all below 2^53)."
  },
  {
   "property": "C25",
   "status": "proved",
   "theorems": [
    "C25_same_polynomial",
    "C25_bernstein_sum",
    "C25_back_to_bezier",
    "C25_round_trip",
    "C25_invertible"
   ],
   "note": "Degrees up to 30 (C81 covers the rest). np.linalg.inv is any function inverting the conversion matrices; one exists (C25_invertible)."
  },
  {
   "property": "C26",
   "status": "proved",
   "theorems": [
    "C26_same_curve",
    "C26_same_ends",
    "C26_wrong_count"
   ],
   "note": "Exact rationals."
  },
  {
   "property": "C27",
   "status": "proved",
   "theorems": [
    "C27_recursive_min",
    "C27_iterative_min",
    "C27_recursive_max"
   ],
   "note": ""
  },
  {
   "property": "C28",
   "status": "partial",
   "theorems": [
    "C28_roots_at_right_end_refuted",
    "C28_one_value_in_range_partial"
   ],
   "note": "Refuted by code: both halves are compared at the same midpoint, so for every function the search runs to the right end of the interval, away from any root that is not there. Proved: it stops with one point within half the tolerance of the right end."
  },
  {
   "property": "C29",
   "status": "proved",
   "theorems": [
    "C29_build",
    "C29_invalid"
   ],
   "note": "For all object lists with consistent boxes. Objects with min > max are excluded (BoundingBox does not check). An empty list or objects_in_leaf <= 0 raises ValueError."
  },
  {
   "property": "C30",
   "status": "proved",
   "theorems": [
    "C30_box_query",
    "C30_leaves"
   ],
   "note": "Exact per object with one object per leaf; with larger leaves the leaf payloads are reported whole."
  },
  {
   "property": "C31",
   "status": "proved",
   "theorems": [
    "C31_pairs",
    "C31_leaf_pairs",
    "C31_overlap"
   ],
   "note": ""
  },
  {
   "property": "C32",
   "status": "partial",
   "theorems": [
    "C32_cut_refuted",
    "C32_stale_refuted",
    "C32_half_partial",
    "C32_from_zero_partial",
    "C32_split8_partial"
   ],
   "note": "Refuted by code: the cut is at (min+max)*parameter, and the halves keep the whole box's array, centre and dimensions, so intersect and volume see the whole box. With the default parameter 1/2 the corner attributes do tile the box (also split4, split8)."
  },
  {
   "property": "C33",
   "status": "proved",
   "theorems": [
    "C33_find_span",
    "C33_find_span_below",
    "C33_find_span_periodic",
    "C33_find_span_linear",
    "C33_find_spans",
    "C33_find_knot_span"
   ],
   "note": "Periodic wrapping included."
  },
  {
   "property": "C34",
   "status": "proved",
   "theorems": [
    "C34_basis",
    "C34_basis_function"
   ],
   "note": "Every buffer content."
  },
  {
   "property": "C35",
   "status": "partial",
   "theorems": [
    "C35_convex_hull_box",
    "C35_bbox_partial",
    "C35_bbox_weights_refuted"
   ],
   "note": "Refuted by code for weights other than 1: bbox divides Euclidean coordinates by the weight. Proved: the curve is inside every box around its control points; bbox contains the curve when all weights are 1."
  },
  {
   "property": "C36",
   "status": "proved",
   "theorems": [
    "C36_start",
    "C36_end"
   ],
   "note": "The end weight must be non-zero, the other weights are arbitrary."
  },
  {
   "property": "C37",
   "status": "proved",
   "theorems": [
    "C37_insert_knot_columns",
    "C37_insert_knot_keeps_curve"
   ],
   "note": "Hypotheses: the knot lies in the domain (upper end excluded), no other knot is within calc_epsilon of it, final multiplicity at most the degree."
  },
  {
   "property": "C38",
   "status": "partial",
   "theorems": [
    "C38_round_trip_partial",
    "C38_magic",
    "C38_version",
    "C38_spread_refuted"
   ],
   "note": "Round trip proved for every bit pattern, every content of the unwritten bytes and of the memory behind the data, when the arrays lie in one piece, the control points have four columns and counts fit a C int. Refuted by code for knot arrays with a step (such as a[::2]): the neighbouring numbers are stored. The Greville abscissae are not modelled."
  },
  {
   "property": "C39",
   "status": "partial",
   "theorems": [
    "C39_fresh_partial",
    "C39_degree_refuted",
    "C39_copy_refuted",
    "C39_shared_refuted",
    "C39_result_refuted"
   ],
   "note": "Refuted by code: the degree setter does not clear the cache; copy() makes a curve whose cache evaluates the original; curves built from one knot array share it, so normalising one leaves the other's cache stale; evaluate returns the cached array itself. Proved for every history of the other operations over any number of curves, each with its own knot array. Programs that write into the arrays returned by the getters are excluded from the positive theorem."
  },
  {
   "property": "C40",
   "status": "proved",
   "theorems": [
    "C40_reverse_curve",
    "C40_reverse_twice"
   ],
   "note": "Positive weights, non-empty first span, inner multiplicities at most the degree (otherwise the curve jumps); periodic curves must repeat their first rows."
  },
  {
   "property": "C41",
   "status": "proved",
   "theorems": [
    "C41_normalize_knots"
   ],
   "note": ""
  },
  {
   "property": "C42",
   "status": "proved",
   "theorems": [
    "C42_generated_knots",
    "C42_periodic_knots",
    "C42_generate_knot_clamped",
    "C42_generate_knot_unclamped",
    "C42_compute_knot_vector"
   ],
   "note": "The averaged knots are proved for strictly increasing parameters from 0 to 1, which is what compute_params_curve returns (C151); the Schoenberg-Whitney inequalities are included."
  },
  {
   "property": "C43",
   "status": "partial",
   "theorems": [
    "C43_operators",
    "C43_solids_partial",
    "C43_plane_partial",
    "C43_minus_swapped_partial",
    "C43_difference_refuted",
    "C43_difference_bounds_refuted",
    "C43_intersection_2d_refuted"
   ],
   "note": "Refuted by code: a - b computes max(-a, b), i.e. b without a, while reporting the bounds of a; & of two 2D shapes always raises TypeError (self._bounds is called, not assigned). Proved: the op_* functions, all expressions without - (3D), without - and & (2D), and that every expression means its reading with the operands of - exchanged."
  },
  {
   "property": "C44",
   "status": "proved",
   "theorems": [
    "C44_quadtree",
    "C44_octree"
   ],
   "note": "2D for a tree over the bounds of the shape (see C108 for explicit bounds); 3D for any bounds. Reported cells are characterised exactly: the maximal dyadic cells all of whose finest cells have corners of one sign. A negative depth (endless recursion) is not modelled."
  },
  {
   "property": "C45",
   "status": "proved",
   "theorems": [
    "C45_accelerated"
   ],
   "note": "Empty vertex lists are excluded: the accelerated version recurses without end there."
  },
  {
   "property": "C46",
   "status": "proved",
   "theorems": [
    "C46_rotation",
    "C46_reversal",
    "C46_extra_vertex"
   ],
   "note": "Also shown: an extra vertex on an edge changes nothing."
  },
  {
   "property": "C47",
   "status": "partial",
   "theorems": [
    "C47_arguments_partial",
    "C47_nested_string_refuted",
    "C47_typed_refuted",
    "C47_doubled_refuted"
   ],
   "note": "Proved for argument lists of integers, reals, quoted strings, references, enumerations and nested tuples, if no string holds its own quotation mark and no nested string holds a parenthesis. Refuted by code otherwise: the search for the closing parenthesis ignores quotation marks, so a nested string with a closing parenthesis splits the tuple; a typed parameter NAME(...) comes back as the tuple followed by the name; a doubled quotation mark is not turned into one."
  },
  {
   "property": "C48",
   "status": "proved",
   "theorems": [
    "C48_counts",
    "C48_expand",
    "C48_exact",
    "C48_apart",
    "C48_order"
   ],
   "note": "Also: neighbouring values are at least the tolerance apart, in strict order if the knots are in order."
  },
  {
   "property": "C49",
   "status": "proved",
   "theorems": [
    "C49_fresh",
    "C49_no_dangling"
   ],
   "note": "All public add_ methods and the constructor, histories in which calls raise included. The boundary curves of a surface are an input of the model."
  },
  {
   "property": "C50",
   "status": "proved",
   "theorems": [
    "C50_greville"
   ],
   "note": ""
  },
  {
   "property": "C51",
   "status": "proved",
   "theorems": [
    "C51_split_curve",
    "C51_split_normalized"
   ],
   "note": ""
  },
  {
   "property": "C52",
   "status": "proved",
   "theorems": [
    "C52_find_depth_logarithmic"
   ],
   "note": "The depth bound is attained (C52_case)."
  },
  {
   "property": "C53",
   "status": "partial",
   "theorems": [
    "C53_append_keeps_values_refuted",
    "C53_append_partial"
   ],
   "note": "Refuted by code for every run of four or more appends; exactly the first three values are kept."
  },
  {
   "property": "C54",
   "status": "partial",
   "theorems": [
    "C54_replace_node_refuted"
   ],
   "note": "Refuted by code: writes `prev` instead of `previous`."
  },
  {
   "property": "C55",
   "status": "partial",
   "theorems": [
    "C55_iter_empty_refuted"
   ],
   "note": "Refuted by code: yields one None."
  },
  {
   "property": "C56",
   "status": "partial",
   "theorems": [
    "C56_cdll_index_negative_partial",
    "C56_get_too_negative_refuted"
   ],
   "note": "index and -len..-1 proved; below -len the code returns the head item (refuted)."
  },
  {
   "property": "C57",
   "status": "proved",
   "theorems": [
    "C57_evaluate_is_nurbs",
    "C57_evaluate_multi"
   ],
   "note": "Exact arithmetic; the domain is [U_p, U_{n+1}]."
  },
  {
   "property": "C58",
   "status": "partial",
   "theorems": [
    "C58_evaluation_loops_refuted",
    "C58_clamped_interval_partial"
   ],
   "note": "Refuted by code for every unclamped non-periodic curve: the span search loops forever on the part of the interval before U_p. Proved for clamped curves."
  },
  {
   "property": "C59",
   "status": "partial",
   "theorems": [
    "C59_make_periodic_closed_partial",
    "C59_make_periodic_refuted"
   ],
   "note": "Proved whenever is_periodic() answers false; refuted otherwise: is_periodic() tests only one row, an open curve may be left open."
  },
  {
   "property": "C60",
   "status": "partial",
   "theorems": [
    "C60_periodic_repeats_refuted"
   ],
   "note": "Refuted by code: the parameter is wrapped only for the span search, the basis functions use the unwrapped one."
  },
  {
   "property": "C61",
   "status": "partial",
   "theorems": [
    "C61_rational_insert_refuted"
   ],
   "note": "Refuted by code: insertion is linear on (x,y,z,w) rows while evaluation multiplies xyz by w."
  },
  {
   "property": "C62",
   "status": "proved",
   "theorems": [
    "C62_multiply_knot"
   ],
   "note": "Shape part for equal weights; for any weights every column keeps its B-spline function."
  },
  {
   "property": "C63",
   "status": "partial",
   "theorems": [
    "C63_greville_after_insert_refuted"
   ],
   "note": "Refuted by code for every insertion: the abscissae are never refreshed."
  },
  {
   "property": "C64",
   "status": "partial",
   "theorems": [
    "C64_flip_refuted"
   ],
   "note": "Refuted by code for every curve: the flipped knot vector is descending."
  },
  {
   "property": "C65",
   "status": "partial",
   "theorems": [
    "C65_rational_split_refuted"
   ],
   "note": "Refuted by code, same cause as C61."
  },
  {
   "property": "C66",
   "status": "proved",
   "theorems": [
    "C66_depth"
   ],
   "note": ""
  },
  {
   "property": "C67",
   "status": "partial",
   "theorems": [
    "C67_nearest_after_delete_refuted",
    "C67_nearest_after_missing_delete_partial",
    "C67_nearest_after_one_delete_partial"
   ],
   "note": "Refuted by code: with no right subtree the minimum of the left subtree is moved up but the rest stays on the left. Proved for deletions of points that are not stored, and for one deletion from a freshly built tree whose points pairwise differ on every axis."
  },
  {
   "property": "C68",
   "status": "partial",
   "theorems": [
    "C68_build_mutates_argument_refuted",
    "C68_argument_reordered_partial"
   ],
   "note": "Refuted by code: the caller's list is sorted in place by the first axis. Proved: it stays a permutation."
  },
  {
   "property": "C69",
   "status": "partial",
   "theorems": [
    "C69_less_partial",
    "C69_greater_partial",
    "C69_greater_refuted"
   ],
   "note": "Refuted by code: X > c is reported for every c inside X. The < direction is exact."
  },
  {
   "property": "C70",
   "status": "proved",
   "theorems": [
    "C70_subdivide",
    "C70_evaluate",
    "C70_float"
   ],
   "note": ""
  },
  {
   "property": "C71",
   "status": "proved",
   "theorems": [
    "C71_invert",
    "C71_zero",
    "C71_zero_end"
   ],
   "note": ""
  },
  {
   "property": "C72",
   "status": "partial",
   "theorems": [
    "C72_division_refuted"
   ],
   "note": "Refuted by code: for every such Y and every non-zero x in X some quotient is missed."
  },
  {
   "property": "C73",
   "status": "proved",
   "theorems": [
    "C73_max",
    "C73_min"
   ],
   "note": ""
  },
  {
   "property": "C74",
   "status": "partial",
   "theorems": [
    "C74_from_tuple_refuted",
    "C74_never_refuted"
   ],
   "note": "Refuted by code: from_tuple recurses into the numbers and always raises."
  },
  {
   "property": "C75",
   "status": "partial",
   "theorems": [
    "C75_wide_refuted",
    "C75_narrow_partial"
   ],
   "note": "Refuted by code: the default output has three columns; more columns write out of bounds (index error with bounds checks), fewer leave zero columns."
  },
  {
   "property": "C76",
   "status": "partial",
   "theorems": [
    "C76_tiny_refuted"
   ],
   "note": "Refuted by code: such an extent is treated as zero, for every box and every such length."
  },
  {
   "property": "C77",
   "status": "proved",
   "theorems": [
    "C77_first_hit"
   ],
   "note": ""
  },
  {
   "property": "C78",
   "status": "partial",
   "theorems": [
    "C78_far_refuted"
   ],
   "note": "Refuted by code: the exit is cut at 1, so every box met only beyond parameter 1 gives exit before entry. Rays hit at parameter <= 1: C77."
  },
  {
   "property": "C79",
   "status": "partial",
   "theorems": [
    "C79_tolerance_refuted",
    "C79_tolerance_partial"
   ],
   "note": "Refuted by code: neighbours are compared with the previous input value, not the previous kept one, so a chain of close values collapses to its first."
  },
  {
   "property": "C80",
   "status": "partial",
   "theorems": [
    "C80_unique_mutates_refuted"
   ],
   "note": "Refuted by code: qsort runs on the caller memory."
  },
  {
   "property": "C81",
   "status": "partial",
   "theorems": [
    "C81_elevation_outside_refuted",
    "C81_conversion_outside_refuted"
   ],
   "note": "Refuted by code: degrees beyond 30 read outside the 31x31 table of binomials without a check. Degrees up to 30 are C25 and C26."
  },
  {
   "property": "C82",
   "status": "proved",
   "theorems": [
    "C82_cross_product"
   ],
   "note": ""
  },
  {
   "property": "C83",
   "status": "proved",
   "theorems": [
    "C83_partial_derivatives",
    "C83_derivative_unique"
   ],
   "note": "Derivative over the rationals with a quadratic error bound, which determines it uniquely."
  },
  {
   "property": "C84",
   "status": "proved",
   "theorems": [
    "C84_normal"
   ],
   "note": ""
  },
  {
   "property": "C85",
   "status": "partial",
   "theorems": [
    "C85_no_basis_change_refuted",
    "C85_constant_partial"
   ],
   "note": "Refuted by code: the coefficient arrays are used as control points (and back) without changing basis."
  },
  {
   "property": "C86",
   "status": "proved",
   "theorems": [
    "C86_rational_patch"
   ],
   "note": "A zero Bezier weight is a division by zero and excluded by the hypothesis that the call succeeds."
  },
  {
   "property": "C87",
   "status": "proved",
   "theorems": [
    "C87_min_2d_in_range",
    "C87_min_2d_bowl"
   ],
   "note": ""
  },
  {
   "property": "C88",
   "status": "partial",
   "theorems": [
    "C88_separable_valley_missed_refuted",
    "C88_is_separable_partial"
   ],
   "note": "Refuted by code: for a sum of two strict valleys with minimum at x = 9/20 the search ends at x <= 3/8 for every tolerance below 1."
  },
  {
   "property": "C89",
   "status": "partial",
   "theorems": [
    "C89_quadratic_missed_refuted",
    "C89_min_3d_in_range_partial"
   ],
   "note": "Refuted by code: for a quadratic with minimum at x = 7/16 the search ends at x <= 3/8. Proved: it stops in the box for every function."
  },
  {
   "property": "C90",
   "status": "partial",
   "theorems": [
    "C90_middle_never_reached_refuted",
    "C90_plane_misses_refuted",
    "C90_min_nd_in_range_partial"
   ],
   "note": "Refuted by code, for every function: outside dimension two every coordinate of the result is in the outer three eighths of its range, and in dimension two one coordinate is in its lowest quarter. Proved: it stops in the box for every function."
  },
  {
   "property": "C91",
   "status": "proved",
   "theorems": [
    "C91_scan_reports_crossings"
   ],
   "note": ""
  },
  {
   "property": "C92",
   "status": "partial",
   "theorems": [
    "C92_root_reported_twice_refuted"
   ],
   "note": "Refuted by code: a zero at a sample followed by a positive sample is reported at both."
  },
  {
   "property": "C93",
   "status": "partial",
   "theorems": [
    "C93_zero_lost_refuted",
    "C93_zeros_of_it_partial",
    "C93_sign_change_nearby_partial"
   ],
   "note": "Refuted by code: for (x+y)(4-3x) on [-1,1]^2 the result has x >= 1/2 and y >= 0, away from the zeros x + y = 0. Proved: termination, None exactly for a positive product, result in the box, and a sign change within tolerance when the function has no rational zero in the box."
  },
  {
   "property": "C94",
   "status": "partial",
   "theorems": [
    "C94_smallest_at_the_end_refuted",
    "C94_smallest_at_the_start_refuted",
    "C94_stops_in_range_partial"
   ],
   "note": "Refuted by code: IndexError when the last sample is clearly the smallest; a smallest first sample is left out of the next window. Proved: it stops with a parameter of the interval or with IndexError."
  },
  {
   "property": "C95",
   "status": "proved",
   "theorems": [
    "C95_all_stored_and_occupied"
   ],
   "note": ""
  },
  {
   "property": "C96",
   "status": "partial",
   "theorems": [
    "C96_unbalanced_refuted"
   ],
   "note": "Refuted by code: the parent search returns the root, so a leaf split off in a tree of three levels becomes a child of the root."
  },
  {
   "property": "C97",
   "status": "partial",
   "theorems": [
    "C97_bad_limits_refuted"
   ],
   "note": "Refuted by code: with 2*min_children > max_children+1 the insertion that fills a leaf raises TypeError, and with min_children = 0 IndexError. For the other limits see C95."
  },
  {
   "property": "C98",
   "status": "proved",
   "theorems": [
    "C98_point",
    "C98_node",
    "C98_listing"
   ],
   "note": ""
  },
  {
   "property": "C99",
   "status": "partial",
   "theorems": [
    "C99_second_refuted",
    "C99_found_partial"
   ],
   "note": "Refuted by code: for a one-leaf tree the object is reported twice; for a larger tree whose root box contains p but no leaf does, the result is [None]. Otherwise it equals traverse_bvh."
  },
  {
   "property": "C100",
   "status": "proved",
   "theorems": [
    "C100_vicinity",
    "C100_signed_distance"
   ],
   "note": "The signed distance is modelled by an increasing function of it (square outside, itself inside). Trees of a single leaf return that leaf for every point."
  },
  {
   "property": "C101",
   "status": "partial",
   "theorems": [
    "C101_greedy_refuted",
    "C101_reported_partial"
   ],
   "note": "Refuted by code: only the child whose own box is nearer is searched, so a nearer leaf on the other side is missed. What is reported are leaves at the reported distance."
  },
  {
   "property": "C102",
   "status": "proved",
   "theorems": [
    "C102_segment"
   ],
   "note": ""
  },
  {
   "property": "C103",
   "status": "proved",
   "theorems": [
    "C103_corners",
    "C103_edges",
    "C103_faces"
   ],
   "note": "The comments naming the directions in the source are off (the first four edges run along z), the sets are right."
  },
  {
   "property": "C104",
   "status": "proved",
   "theorems": [
    "C104_merge",
    "C104_intersection",
    "C104_intersect",
    "C104_interiors",
    "C104_contains"
   ],
   "note": ""
  },
  {
   "property": "C105",
   "status": "partial",
   "theorems": [
    "C105_expand_refuted"
   ],
   "note": "Refuted by code: only min_point and max_point change; the array used by intersect and the dimensions used by volume stay as before."
  },
  {
   "property": "C106",
   "status": "partial",
   "theorems": [
    "C106_evaluate_refuted"
   ],
   "note": "Refuted by code: (min+max)*u, wrong on every axis where min is not 0 and u is not 1/2."
  },
  {
   "property": "C107",
   "status": "partial",
   "theorems": [
    "C107_reordered_refuted",
    "C107_sorted_partial"
   ],
   "note": "Refuted by code: the list is sorted in place along one axis."
  },
  {
   "property": "C108",
   "status": "partial",
   "theorems": [
    "C108_elsewhere_refuted"
   ],
   "note": "Refuted by code: build samples the explicit bounds but passes shape.bounds() to build_node, so no reported cell ever holds a point outside the bounds of the shape."
  },
  {
   "property": "C109",
   "status": "partial",
   "theorems": [
    "C109_shape_tree_refuted"
   ],
   "note": "Refuted by code: build_tree passes the bound method self.implicit as the shape and does not call build; the lists are empty and build raises AttributeError."
  },
  {
   "property": "C110",
   "status": "proved",
   "theorems": [
    "C110_rebuild"
   ],
   "note": ""
  },
  {
   "property": "C111",
   "status": "proved",
   "theorems": [
    "C111_point_inside"
   ],
   "note": ""
  },
  {
   "property": "C112",
   "status": "proved",
   "theorems": [
    "C112_gradient",
    "C112_tangent"
   ],
   "note": ""
  },
  {
   "property": "C113",
   "status": "partial",
   "theorems": [
    "C113_on_curve_refuted"
   ],
   "note": "Refuted by code: v - gradient * d hits the curve exactly when the gradient has length 1 (the normalisation in gradient discards its result)."
  },
  {
   "property": "C114",
   "status": "proved",
   "theorems": [
    "C114_even_odd"
   ],
   "note": "Exact rational arithmetic."
  },
  {
   "property": "C115",
   "status": "proved",
   "theorems": [
    "C115_area",
    "C115_rotation",
    "C115_reversal",
    "C115_translation",
    "C115_linear_map"
   ],
   "note": "Exact rational arithmetic."
  },
  {
   "property": "C116",
   "status": "proved",
   "theorems": [
    "C116_found",
    "C116_exact"
   ],
   "note": "Exact rational arithmetic."
  },
  {
   "property": "C117",
   "status": "proved",
   "theorems": [
    "C117_sound",
    "C117_unclipped",
    "C117_boundary",
    "C117_errors"
   ],
   "note": "Exact rational arithmetic."
  },
  {
   "property": "C118",
   "status": "partial",
   "theorems": [
    "C118_disjoint_refuted"
   ],
   "note": "Refuted by code: unless the edge is the last one processed, the emptied list is indexed with [-1] and IndexError is raised, for every subject and clipper."
  },
  {
   "property": "C119",
   "status": "proved",
   "theorems": [
    "C119_total"
   ],
   "note": "Fuel stands for the while loops: some amount suffices for each pair."
  },
  {
   "property": "C120",
   "status": "partial",
   "theorems": [
    "C120_no_crossing_refuted",
    "C120_separated_refuted"
   ],
   "note": "Refuted by code: without a proper crossing all three operations return the first operand."
  },
  {
   "property": "C121",
   "status": "partial",
   "theorems": [
    "C121_or_refuted"
   ],
   "note": "Refuted by code: __or__ calls intersection."
  },
  {
   "property": "C122",
   "status": "partial",
   "theorems": [
    "C122_open_partial",
    "C122_closed_partial",
    "C122_two_columns_refuted"
   ],
   "note": "Proved for three-column input in a horizontal plane, with the point on no line through two vertices of a fan triangle and no vertex on the test diagonal. Refuted by code for two-column input: it never answers True, and every inside point raises IndexError."
  },
  {
   "property": "C123",
   "status": "partial",
   "theorems": [
    "C123_segments_partial"
   ],
   "note": "For three-column input in a horizontal plane; segments with an end point on the other's line are left out."
  },
  {
   "property": "C124",
   "status": "partial",
   "theorems": [
    "C124_hull_partial",
    "C124_small_refuted"
   ],
   "note": "Proved when distinct heights and non-zero triangle areas are at least 1e-9 (all integer inputs, for example). Refuted by code for small inputs: the absolute tolerance drops a corner of small triangles."
  },
  {
   "property": "C125",
   "status": "proved",
   "theorems": [
    "C125_intersection",
    "C125_union",
    "C125_difference"
   ],
   "note": "Exact arithmetic. General position is the hypothesis; degenerate touching is outside it."
  },
  {
   "property": "C126",
   "status": "proved",
   "theorems": [
    "C126_total",
    "C126_unclosed"
   ],
   "note": ""
  },
  {
   "property": "C127",
   "status": "partial",
   "theorems": [
    "C127_stray_refuted"
   ],
   "note": "Refuted by code: at the top level a closing parenthesis is an ordinary character of a token."
  },
  {
   "property": "C128",
   "status": "partial",
   "theorems": [
    "C128_assignment_partial",
    "C128_digit_refuted"
   ],
   "note": "Proved for names of capital letters and underscores. Refuted by code for every name with a digit, such as AXIS2_PLACEMENT_3D which the writer itself emits: ValueError."
  },
  {
   "property": "C129",
   "status": "proved",
   "theorems": [
    "C129_typed"
   ],
   "note": ""
  },
  {
   "property": "C130",
   "status": "proved",
   "theorems": [
    "C130_curve",
    "C130_surface"
   ],
   "note": "How steputils prints the entities is not modelled."
  },
  {
   "property": "C131",
   "status": "partial",
   "theorems": [
    "C131_weights_refuted",
    "C131_surface_weights_refuted"
   ],
   "note": "Refuted by code: weights are never written, so a circular arc is exported as a parabola."
  },
  {
   "property": "C132",
   "status": "partial",
   "theorems": [
    "C132_loop_refuted"
   ],
   "note": "Refuted by code: every edge gets two new vertices of its own, so no two edges of an exported loop share a vertex."
  },
  {
   "property": "C133",
   "status": "partial",
   "theorems": [
    "C133_name_partial",
    "C133_name_refuted"
   ],
   "note": "Proved for references to points. Refuted by code for coordinates: the name is dropped."
  },
  {
   "property": "C134",
   "status": "proved",
   "theorems": [
    "C134_tile"
   ],
   "note": "Sides are exact rationals; rounding to four decimals is modelled."
  },
  {
   "property": "C135",
   "status": "proved",
   "theorems": [
    "C135_ends",
    "C135_never"
   ],
   "note": "The recursion limit of Python is not modelled: a negative target ends in RecursionError."
  },
  {
   "property": "C136",
   "status": "proved",
   "theorems": [
    "C136_closest"
   ],
   "note": ""
  },
  {
   "property": "C137",
   "status": "proved",
   "theorems": [
    "C137_overlap",
    "C137_contains",
    "C137_in",
    "C137_point"
   ],
   "note": ""
  },
  {
   "property": "C138",
   "status": "proved",
   "theorems": [
    "C138_traverse"
   ],
   "note": ""
  },
  {
   "property": "C139",
   "status": "partial",
   "theorems": [
    "C139_power",
    "C139_low_refuted"
   ],
   "note": "Proved for positive integers. Refuted by code for integers below 1."
  },
  {
   "property": "C140",
   "status": "partial",
   "theorems": [
    "C140_rectangle",
    "C140_raises_refuted"
   ],
   "note": "Tiling proved. Refuted by code: raises KeyError when no side is too long."
  },
  {
   "property": "C141",
   "status": "partial",
   "theorems": [
    "C141_independent_partial",
    "C141_shared_refuted"
   ],
   "note": "Refuted by code: the constructor and the knots setter keep the caller's knot array, and normalize_knots writes into it, so two curves built from one array change together. Proved when every array is given to one curve only."
  },
  {
   "property": "C142",
   "status": "proved",
   "theorems": [
    "C142_deepcopy"
   ],
   "note": "Histories in which every knot array is given to one curve only, as in C39_fresh_partial."
  },
  {
   "property": "C143",
   "status": "partial",
   "theorems": [
    "C143_bytes_refuted",
    "C143_bytes_partial"
   ],
   "note": "Refuted by code: the last four bytes are never written (sizeof of a pointer instead of the length of the magic bytes). All other bytes depend on the curve only."
  },
  {
   "property": "C144",
   "status": "partial",
   "theorems": [
    "C144_cut_refuted",
    "C144_memory_refuted"
   ],
   "note": "Refuted by code: the length of the data is never looked at; missing numbers are read from the memory behind it."
  },
  {
   "property": "C145",
   "status": "partial",
   "theorems": [
    "C145_pickle_partial",
    "C145_pickle_refuted"
   ],
   "note": "Proved for every curve as constructed, periodic or not. Refuted by code for a periodic curve whose end points were edited: the restored curve has `degree` more control points and other knots."
  },
  {
   "property": "C146",
   "status": "partial",
   "theorems": [
    "C146_binsearch_partial",
    "C146_binsearch_end_refuted",
    "C146_utils_partial",
    "C146_utils_total",
    "C146_utils_start_refuted",
    "C146_outside_diverges_refuted"
   ],
   "note": "Refuted by code: within 1e-5 of the upper end the last span is returned even when the parameter is in an earlier one; with an empty first span bspline_utils returns it for the start of the domain; outside the domain the two searches of knot.py loop forever. Proved elsewhere in the domain."
  },
  {
   "property": "C147",
   "status": "partial",
   "theorems": [
    "C147_calc_basis_partial",
    "C147_calc_basis_refuted",
    "C147_calc_point_refuted"
   ],
   "note": "Refuted by code for every degree >= 2: the last basis value is always 0 (an indentation error), and the point does not depend on the last control point of the span. Proved for degree <= 1."
  },
  {
   "property": "C148",
   "status": "proved",
   "theorems": [
    "C148_evaluate_nurbs"
   ],
   "note": ""
  },
  {
   "property": "C149",
   "status": "partial",
   "theorems": [
    "C149_multi_single_partial",
    "C149_multi_refuted"
   ],
   "note": "Refuted by code: the accumulator is not cleared, so the second point is wrong whenever the first is not the origin. Proved for one parameter."
  },
  {
   "property": "C150",
   "status": "proved",
   "theorems": [
    "C150_normalize_knot"
   ],
   "note": ""
  },
  {
   "property": "C151",
   "status": "proved",
   "theorems": [
    "C151_params",
    "C151_no_length"
   ],
   "note": "The chord lengths (square roots of numpy) are inputs of the model."
  },
  {
   "property": "C152",
   "status": "proved",
   "theorems": [
    "C152_interpolation_system",
    "C152_interpolation_passes"
   ],
   "note": "Solving the system is numpy's and is not modelled: the theorem is about every exact solution."
  },
  {
   "property": "C153",
   "status": "partial",
   "theorems": [
    "C153_merge_partial",
    "C153_merge_close_refuted",
    "C153_close_knots_refuted"
   ],
   "note": "Proved when different knots are further apart than the tolerance of isclose. Refuted by code otherwise: merging a vector having two close knots with itself doubles them."
  },
  {
   "property": "C154",
   "status": "partial",
   "theorems": [
    "C154_remove_duplicates_partial",
    "C154_nothing_to_remove",
    "C154_drift_refuted"
   ],
   "note": "Proved when points within the tolerance are equal. Refuted by code for every tolerance: distances to removed points count, so two kept neighbours can coincide."
  },
  {
   "property": "C155",
   "status": "partial",
   "theorems": [
    "C155_deboor_partial",
    "C155_deboor_knot_refuted"
   ],
   "note": "Proved strictly inside every span. Refuted by code at every inner knot, where the value is exactly doubled."
  },
  {
   "property": "C156",
   "status": "proved",
   "theorems": [
    "C156_evaluate_surface",
    "C156_control_points"
   ],
   "note": ""
  },
  {
   "property": "C157",
   "status": "proved",
   "theorems": [
    "C157_boundary_u",
    "C157_boundary_v",
    "C157_corners"
   ],
   "note": ""
  },
  {
   "property": "C158",
   "status": "proved",
   "theorems": [
    "C158_bbox"
   ],
   "note": ""
  },
  {
   "property": "C159",
   "status": "proved",
   "theorems": [
    "C159_insert_u",
    "C159_insert_v"
   ],
   "note": ""
  },
  {
   "property": "C160",
   "status": "proved",
   "theorems": [
    "C160_split_u",
    "C160_split_v",
    "C160_split_u_edge",
    "C160_split_v_edge"
   ],
   "note": ""
  },
  {
   "property": "C161",
   "status": "proved",
   "theorems": [
    "C161_normalize"
   ],
   "note": ""
  },
  {
   "property": "C162",
   "status": "partial",
   "theorems": [
    "C162_subdivide_partial",
    "C162_normalized_refuted"
   ],
   "note": "Refuted by code: with normalize_knots=True the halves are normalised before the second cut, so any v of the surface that is not strictly inside (0, 1) raises ValueError. Proved: without normalize_knots the four results are exactly the quadrants."
  },
  {
   "property": "C163",
   "status": "proved",
   "theorems": [
    "C163_decompose_uv",
    "C163_decompose_u",
    "C163_decompose_v"
   ],
   "note": ""
  },
  {
   "property": "C164",
   "status": "partial",
   "theorems": [
    "C164_new_surface_partial",
    "C164_set_knots_partial",
    "C164_set_degree_refuted"
   ],
   "note": "Refuted by code: assigning a different degree regenerates the knots but leaves the old interval. Proved for the constructor and the knot setters."
  },
  {
   "property": "C165",
   "status": "proved",
   "theorems": [
    "C165_basis_derivatives",
    "C165_derivatives_unique"
   ],
   "note": ""
  },
  {
   "property": "C166",
   "status": "proved",
   "theorems": [
    "C166_curve_derivatives",
    "C166_first_and_second",
    "C166_unweighted",
    "C166_unique",
    "C166_algorithms_agree"
   ],
   "note": ""
  },
  {
   "property": "C167",
   "status": "partial",
   "theorems": [
    "C167_rational_curve_refuted",
    "C167_weights_ignored",
    "C166_curve_derivatives"
   ],
   "note": "Refuted by code: the weight column is cut off and no quotient rule is applied, so the result does not depend on the weights; for weights 1 and 2 it is not the derivative. Proved: the result is always the derivative of the curve with the weights replaced by one."
  },
  {
   "property": "C168",
   "status": "partial",
   "theorems": [
    "C168_derivative_control_points_refuted"
   ],
   "note": "Refuted by code: rows with four columns are assigned to rows with three, every call raises ValueError."
  },
  {
   "property": "C169",
   "status": "partial",
   "theorems": [
    "C169_plane_at_partial",
    "C169_zero_speed_refuted",
    "C169_normal_refuted"
   ],
   "note": "Refuted by code: normal allocates three rows and writes a fourth, so it never returns; where the first derivative vanishes plane_at divides by zero. Proved: the frame, wherever the first derivative and the perpendicular part of the second are non-zero."
  },
  {
   "property": "C170",
   "status": "partial",
   "theorems": [
    "C170_tangent_partial",
    "C170_curvature_partial"
   ],
   "note": "Proved for non-rational curves where the speed is above 1e-15; with unequal weights the derivatives themselves are wrong (C167), and where the speed vanishes the limit is not modelled."
  },
  {
   "property": "C171",
   "status": "partial",
   "theorems": [
    "C171_surface_derivatives_partial",
    "C171_upper_end_refuted"
   ],
   "note": "Refuted by code: the number of control points instead of the last index is passed to the span search, so at the upper end of a clamped direction the span is empty and the basis functions divide by zero. Proved for all parameters below the upper ends."
  },
  {
   "property": "C172",
   "status": "partial",
   "theorems": [
    "C172_rational_surface_partial",
    "C172_unique",
    "C172_zero_weight"
   ],
   "note": "Proved below the upper ends of the domain (at the upper ends surface_derivatives fails, C171) and for orders up to 30, the size of the table of binomial coefficients."
  },
  {
   "property": "C173",
   "status": "proved",
   "theorems": [
    "C173_romberg_table"
   ],
   "note": ""
  },
  {
   "property": "C174",
   "status": "proved",
   "theorems": [
    "C174_exact",
    "C174_table_exact"
   ],
   "note": ""
  },
  {
   "property": "C175",
   "status": "partial",
   "theorems": [
    "C175_accuracy_refuted",
    "C173_romberg_table"
   ],
   "note": "Refuted by code: the loop stops as soon as two diagonal entries agree, from the third row on; for a polynomial that vanishes at the five nodes it returns 0, whatever the integral. Proved: what the stopping test guarantees (the last two diagonal entries are closer than acc)."
  },
  {
   "property": "C176",
   "status": "proved",
   "theorems": [
    "C176_coordinates"
   ],
   "note": ""
  },
  {
   "property": "C177",
   "status": "proved",
   "theorems": [
    "C177_three_planes"
   ],
   "note": ""
  },
  {
   "property": "C178",
   "status": "partial",
   "theorems": [
    "C178_three_planes_defined_refuted",
    "C178_three_planes_defined_partial",
    "C178_three_planes_total_partial"
   ],
   "note": "Refuted by code: the pivot search compares rows by bisection and can settle on a row whose entry is zero; whenever the second and third normals have no x component (for example the planes x = 1, y = 2, z = 3 in this order) the code divides by zero. Proved: for independent normals the result is finite exactly when the second or third normal has a non-zero x component."
  },
  {
   "property": "C179",
   "status": "proved",
   "theorems": [
    "C179_two_planes"
   ],
   "note": ""
  },
  {
   "property": "C180",
   "status": "partial",
   "theorems": [
    "C180_two_planes_defined_refuted",
    "C180_two_planes_total_partial",
    "C179_two_planes"
   ],
   "note": "Refuted by code: whenever both normals have a zero in the same coordinate (for example the XY and XZ planes) the elimination divides by zero. Proved: this failure for each of the three coordinates, and that a division by zero is the only way not to get a line. Not proved: a characterisation of all failures."
  },
  {
   "property": "C181",
   "status": "partial",
   "theorems": [
    "C181_stacks_refuted",
    "C181_planes_planes_refuted",
    "C181_stacks_partial"
   ],
   "note": "Refuted by code: for a single plane and a stack the arguments are swapped, so every finite row has the opposite direction; planes_planes_intersect has no return statement and never returns the lines. Proved: the other three shapes."
  },
  {
   "property": "C182",
   "status": "proved",
   "theorems": [
    "C182_ray_plane",
    "C182_line_plane"
   ],
   "note": ""
  },
  {
   "property": "C183",
   "status": "partial",
   "theorems": [
    "C183_plane_ray_refuted",
    "C183_plane_ray_partial"
   ],
   "note": "Refuted by code: for the two-row layout the local name is unbound and every call raises. Proved: the four-row layout."
  },
  {
   "property": "C184",
   "status": "proved",
   "theorems": [
    "C184_parametric"
   ],
   "note": ""
  },
  {
   "property": "C185",
   "status": "proved",
   "theorems": [
    "C185_plane_equation",
    "C185_signed_distance",
    "C185_signed_value"
   ],
   "note": ""
  },
  {
   "property": "C186",
   "status": "partial",
   "theorems": [
    "C186_from_equation_refuted",
    "C186_from_equation_partial"
   ],
   "note": "Refuted by code: the origin is +d N instead of -d N / |(a, b, c)|, so it is on the plane only for d = 0. Proved: the normal, and that equivalence."
  },
  {
   "property": "C187",
   "status": "proved",
   "theorems": [
    "C187_from_points"
   ],
   "note": ""
  },
  {
   "property": "C188",
   "status": "partial",
   "theorems": [
    "C188_from_normal_refuted",
    "C188_from_normal_partial",
    "C188_short_normal_partial"
   ],
   "note": "Refuted by code: Y is X x N, so X x Y = -N for every normal. Proved: the frame is orthonormal, has the right origin and normal, and is left-handed; the result for short normals."
  },
  {
   "property": "C189",
   "status": "partial",
   "theorems": [
    "C189_from_normal_origin_refuted",
    "C189_from_normal_origin_partial"
   ],
   "note": "Refuted by code: the X axis is the projection of the world origin minus the origin, which is the zero vector for every origin that is a multiple of the normal, so the division is 0/0. Proved: every other origin gives a right-handed orthonormal frame."
  },
  {
   "property": "C190",
   "status": "proved",
   "theorems": [
    "C190_project",
    "C190_project_plane"
   ],
   "note": ""
  },
  {
   "property": "C191",
   "status": "proved",
   "theorems": [
    "C191_distance"
   ],
   "note": ""
  },
  {
   "property": "C192",
   "status": "partial",
   "theorems": [
    "C192_local_to_world_refuted",
    "C192_local_world_partial"
   ],
   "note": "Refuted by code: the default plane is an array without the attributes that are read, so every call without a plane raises AttributeError. Proved: the two functions are inverse to each other for plane objects with an orthonormal frame."
  },
  {
   "property": "C193",
   "status": "proved",
   "theorems": [
    "C193_inner_products"
   ],
   "note": ""
  },
  {
   "property": "C194",
   "status": "partial",
   "theorems": [
    "C194_products_refuted",
    "C194_products_partial"
   ],
   "note": "Refuted by code: the result is allocated without being set and the products are added to it, so each entry is the right value plus what the memory held. Proved: memory that holds zeros gives the products."
  },
  {
   "property": "C195",
   "status": "proved",
   "theorems": [
    "C195_unit"
   ],
   "note": "A zero vector divides zero by zero; the model reports it as an error."
  },
  {
   "property": "C196",
   "status": "proved",
   "theorems": [
    "C196_normalize"
   ],
   "note": ""
  },
  {
   "property": "C197",
   "status": "proved",
   "theorems": [
    "C197_support"
   ],
   "note": ""
  },
  {
   "property": "C198",
   "status": "partial",
   "theorems": [
    "C198_gram_schmidt_rows_refuted"
   ],
   "note": "Refuted by code: the second loop reads the column left over from the first, so every entry of a row is the value for the last column; the product with A[i] is that value times the sum of A[i]. Proved: exactly this description of the result."
  },
  {
   "property": "C199",
   "status": "partial",
   "theorems": [
    "C199_gram_schmidt_refuted",
    "C199_gram_schmidt_partial"
   ],
   "note": "Refuted by code: when result is vec2 it is overwritten before it is read again and the answer is always the zero vector. Proved: for a separate result or for result = vec1 the answer is right and orthogonal to vec1."
  },
  {
   "property": "C200",
   "status": "proved",
   "theorems": [
    "C200_solve",
    "C200_invert"
   ],
   "note": ""
  },
  {
   "property": "C201",
   "status": "partial",
   "theorems": [
    "C201_solve_in_place_refuted",
    "C201_solve_in_place_partial"
   ],
   "note": "Refuted by code: the first entry is overwritten before the second is computed; the error of the second entry is given exactly. Proved: right for upper triangular matrices."
  },
  {
   "property": "C202",
   "status": "partial",
   "theorems": [
    "C202_invert_many_refuted",
    "C202_invert_partial"
   ],
   "note": "Refuted by code: for an array of matrices the status array is made with three dimensions and assigned to a one-dimensional view, so every such call raises ValueError. Proved: a single matrix."
  },
  {
   "property": "C203",
   "status": "proved",
   "theorems": [
    "C203_decompose"
   ],
   "note": ""
  },
  {
   "property": "C204",
   "status": "partial",
   "theorems": [
    "C204_decompose_dependent_refuted"
   ],
   "note": "Refuted by code: for dependent a and b the solver leaves its result untouched, its status is ignored, and the caller gets uninitialised memory."
  },
  {
   "property": "C205",
   "status": "proved",
   "theorems": [
    "C205_closest"
   ],
   "note": ""
  },
  {
   "property": "C206",
   "status": "partial",
   "theorems": [
    "C206_ray_refuted",
    "C206_ray_partial"
   ],
   "note": "Refuted by code: the projection is not clamped, so every point behind the start gives a point that is not on the ray. Proved: points not behind the start."
  },
  {
   "property": "C207",
   "status": "partial",
   "theorems": [
    "C207_vector_closest_refuted",
    "C207_vector_closest_partial"
   ],
   "note": "Refuted by code: the start point is subtracted and never added again; the result is the closest point exactly when the start is the origin. Proved: result plus start is the closest point."
  },
  {
   "property": "C208",
   "status": "partial",
   "theorems": [
    "C208_marching_closest_refuted",
    "C208_marching_closest_partial"
   ],
   "note": "Refuted by code: the projection scales the vector to the point instead of the direction, so for a point off the line the result is the start or is itself off the line. Proved: the exact multiple."
  },
  {
   "property": "C209",
   "status": "proved",
   "theorems": [
    "C209_orientation"
   ],
   "note": ""
  },
  {
   "property": "C210",
   "status": "partial",
   "theorems": [
    "C210_open_refuted"
   ],
   "note": "Refuted by code: the closing edge is missing; every such polygon has translates with both answers."
  },
  {
   "property": "C211",
   "status": "proved",
   "theorems": [
    "C211_cross"
   ],
   "note": ""
  },
  {
   "property": "C212",
   "status": "proved",
   "theorems": [
    "C212_spherical"
   ],
   "note": ""
  },
  {
   "property": "C213",
   "status": "partial",
   "theorems": [
    "C213_cylindrical_refuted"
   ],
   "note": "Refuted by code: the spherical radius and polar angle are stored in place of the cylindrical ones; no point with z different from 0 and no point of the plane z = 0 with x different from 0 survives the round trip."
  },
  {
   "property": "C214",
   "status": "partial",
   "theorems": [
    "C214_close_refuted",
    "C214_close_partial"
   ],
   "note": "Refuted by code: the relative tolerance is taken of the second argument only; for all tolerances with a positive relative part there is a pair on which the two orders differ. Proved: reflexive, and symmetric when the relative tolerance is 0."
  },
  {
   "property": "C215",
   "status": "proved",
   "theorems": [
    "C215_improve_uv"
   ],
   "note": ""
  },
  {
   "property": "C216",
   "status": "partial",
   "theorems": [
    "C216_order_refuted"
   ],
   "note": "Refuted by code: the minors are compared without their absolute value. Whenever the call succeeds and no minor is negative, the call with the derivatives exchanged fails."
  },
  {
   "property": "C217",
   "status": "partial",
   "theorems": [
    "C217_improve_uv_python_refuted",
    "C217_improve_uv_python_partial"
   ],
   "note": "Refuted by code: the key that chooses the minor is the signed area function det, which is not the determinant; for du = (a, 0, 0), dv = (0, d, 0) with a d > 0 a singular block is chosen for every displacement, and _improve_uv answers (0, 0). Proved: an answer reported as solved is the solution."
  },
  {
   "property": "C218",
   "status": "proved",
   "theorems": [
    "C218_planes_meet"
   ],
   "note": ""
  },
  {
   "property": "C219",
   "status": "proved",
   "theorems": [
    "C219_last_step"
   ],
   "note": "The distance is the one computed with the square root given to the model; nothing is assumed about it."
  },
  {
   "property": "C220",
   "status": "partial",
   "theorems": [
    "C220_success_refuted"
   ],
   "note": "Refuted by code: the status of the linear solver is dropped. From every starting point with dependent gradients the starting point is returned as success whatever the values of the functions are."
  },
  {
   "property": "C221",
   "status": "partial",
   "theorems": [
    "C221_grads_pair_refuted",
    "C221_answer_form_partial"
   ],
   "note": "Refuted by code: the conditional expression covers only the first element of the tuple, so every answer with gradients has five elements. Proved: without gradients the answer is the point, the pair or a ValueError as documented."
  },
  {
   "property": "C222",
   "status": "proved",
   "theorems": [
    "C222_compiled_agrees"
   ],
   "note": ""
  },
  {
   "property": "C223",
   "status": "proved",
   "theorems": [
    "C223_surface_point"
   ],
   "note": ""
  },
  {
   "property": "C224",
   "status": "partial",
   "theorems": [
    "C224_surface_point_refuted"
   ],
   "note": "Refuted by code: a start with zero gradient is returned whatever the value of the function; with a tolerance that is not positive no number of iterations suffices, even from a point of the surface. See C223 for what holds."
  },
  {
   "property": "C225",
   "status": "partial",
   "theorems": [
    "C225_surface_plane_refuted"
   ],
   "note": "Refuted by code: the point, an array of three numbers, is unpacked into two names; no call returns."
  },
  {
   "property": "C226",
   "status": "proved",
   "theorems": [
    "C226_curve_point"
   ],
   "note": ""
  },
  {
   "property": "C227",
   "status": "partial",
   "theorems": [
    "C227_curve_point2_refuted",
    "C227_curve_point2_partial"
   ],
   "note": "Refuted by code: the step length starts at 1.0, so every tolerance above 1 returns the start unchanged. Proved for tolerances up to 1."
  },
  {
   "property": "C228",
   "status": "partial",
   "theorems": [
    "C228_curve_inversion_refuted",
    "C228_curve_inversion_partial"
   ],
   "note": "Refuted by code: when an iterate passes a convergence test the iterate before it is returned. Every parameter returned is the start or has distance above tol1; for a straight line the start is returned for every point. Proved: a start at a foot of the point is kept."
  },
  {
   "property": "C229",
   "status": "partial",
   "theorems": [
    "C229_surface_inversion_refuted",
    "C229_surface_inversion_partial"
   ],
   "note": "Refuted by code: the iterate before the one that passes the tests is returned. Every result is the start or has distance above tol1; for a plane the start is returned for every point. Proved: a start at a foot of the point is kept."
  },
  {
   "property": "C230",
   "status": "proved",
   "theorems": [
    "C230_orthonormalize",
    "C230_zero_vector"
   ],
   "note": ""
  },
  {
   "property": "C231",
   "status": "partial",
   "theorems": [
    "C231_arguments_refuted"
   ],
   "note": "Refuted by code: v and w are updated in place. After success they hold the second and third returned vector; after the error about parallel vectors v holds its orthogonal part."
  },
  {
   "property": "C232",
   "status": "proved",
   "theorems": [
    "C232_frenet"
   ],
   "note": ""
  },
  {
   "property": "C233",
   "status": "partial",
   "theorems": [
    "C233_perpendicular_refuted",
    "C233_perpendicular_partial"
   ],
   "note": "Refuted by code: dot calls scalar_dot, a name the module does not have, so gram_schmidt (and make_perpendicular in space) and projection_length raise NameError for all non-zero vectors. Proved for the plane."
  },
  {
   "property": "C234",
   "status": "partial",
   "theorems": [
    "C234_offset_refuted"
   ],
   "note": "Refuted by code: the property reads itself; no depth of recursion suffices."
  },
  {
   "property": "C235",
   "status": "proved",
   "theorems": [
    "C235_inside_and_clamp"
   ],
   "note": ""
  },
  {
   "property": "C236",
   "status": "proved",
   "theorems": [
    "C236_gjk_answers"
   ],
   "note": ""
  },
  {
   "property": "C237",
   "status": "partial",
   "theorems": [
    "C237_no_refuted",
    "C237_no_partial"
   ],
   "note": "Refuted by code: two shapes that are the same single point, for every point, tolerance and pass limit, give no, since a pass limit reached is a no. Proved: a no before the passes are used up comes with a separating plane."
  },
  {
   "property": "C238",
   "status": "partial",
   "theorems": [
    "C238_yes_refuted",
    "C238_yes_partial",
    "C238_winding"
   ],
   "note": "Refuted by code: two separated flat shapes and two separated solid ones give yes, since the face opposite to the newest point is not tested. Proved: yes means that the origin is not outside three faces of a tetrahedron of differences, and if it is not outside the fourth either and the tetrahedron has volume, the shapes meet."
  },
  {
   "property": "C239",
   "status": "partial",
   "theorems": [
    "C239_compiled_yes_refuted",
    "C239_compiled_yes_partial"
   ],
   "note": "Refuted by code: with the default tolerance two separated shapes with coordinates in thousandths give yes. Proved: with tolerance 0 yes means a common point, for all shapes and limits."
  },
  {
   "property": "C240",
   "status": "partial",
   "theorems": [
    "C240_order_refuted"
   ],
   "note": "Refuted by code: for both versions a pair of shapes with different answers in the two orders."
  },
  {
   "property": "C241",
   "status": "proved",
   "theorems": [
    "C241_moved"
   ],
   "note": ""
  },
  {
   "property": "C242",
   "status": "proved",
   "theorems": [
    "C242_more_passes"
   ],
   "note": ""
  },
  {
   "property": "C243",
   "status": "proved",
   "theorems": [
    "C243_support"
   ],
   "note": ""
  },
  {
   "property": "C244",
   "status": "proved",
   "theorems": [
    "C244_triangle_distance"
   ],
   "note": ""
  },
  {
   "property": "C245",
   "status": "partial",
   "theorems": [
    "C245_versions_refuted"
   ],
   "note": "Refuted by code: a pair of shapes with yes in Python and no in the compiled version."
  },
  {
   "property": "C246",
   "status": "proved",
   "theorems": [
    "C246_triangle_sound"
   ],
   "note": ""
  },
  {
   "property": "C247",
   "status": "partial",
   "theorems": [
    "C247_triangle_complete_refuted",
    "C247_triangle_complete_partial"
   ],
   "note": "Refuted by code: every triangle and segment, scaled small enough, gives no point, since the volume they span is compared with an absolute 1e-8; so does every segment parallel to the plane of the triangle. Proved: with the volume at least 1e-8 every common point is found."
  },
  {
   "property": "C248",
   "status": "proved",
   "theorems": [
    "C248_direction"
   ],
   "note": ""
  },
  {
   "property": "C249",
   "status": "partial",
   "theorems": [
    "C249_classes_refuted",
    "C249_classes_partial"
   ],
   "note": "Refuted by code: every point of a triangle that is scaled small enough is a corner, and an inner point of a triangle of size 1e-4 is on a side, since a cross product is compared with an absolute 1e-8. Proved: 2 exactly within 1e-8 of a corner, all points of the sides are 2 or 3, and 1 is never on a side."
  },
  {
   "property": "C250",
   "status": "proved",
   "theorems": [
    "C250_first_triangle"
   ],
   "note": ""
  },
  {
   "property": "C251",
   "status": "partial",
   "theorems": [
    "C251_flag_refuted"
   ],
   "note": "Refuted by code: for every triangle and segment meeting away from the corners the flag is 1, documented as a corner."
  },
  {
   "property": "C252",
   "status": "proved",
   "theorems": [
    "C252_batch"
   ],
   "note": ""
  },
  {
   "property": "C253",
   "status": "partial",
   "theorems": [
    "C253_parallel_refuted",
    "C253_parallel_partial"
   ],
   "note": "Refuted by code: for every pair of a triangle that is met and one that is not, there is an interleaving of two threads that reports none and one that reports both, since the buffers are shared. (build.py passes no OpenMP flag; a build without it runs serially.) Proved: when iterations do not interleave, any order and any assignment to threads gives the sequential result."
  },
  {
   "property": "C254",
   "status": "proved",
   "theorems": [
    "C254_interleavings"
   ],
   "note": ""
  },
  {
   "property": "C255",
   "status": "proved",
   "theorems": [
    "C255_mesh_sound"
   ],
   "note": ""
  },
  {
   "property": "C256",
   "status": "partial",
   "theorems": [
    "C256_mesh_complete_refuted",
    "C256_mesh_complete_partial"
   ],
   "note": "Refuted by code: when all triangles are parallel to coordinate planes, every segment gives None with one triangle per leaf, since the segment is clipped to the flat box first. Proved: a triangle that is met and spans at least 1e-8 with the part of the segment in its box is not overlooked, for all leaf sizes."
  },
  {
   "property": "C257",
   "status": "partial",
   "theorems": [
    "C257_ray_refuted",
    "C257_ray_partial"
   ],
   "note": "Refuted by code: a mesh in one axis-parallel plane is met by no ray. Proved: soundness, order along the ray, and completeness for triangles that span at least 1e-8 with the part of the ray in the box of the mesh; one triangle per leaf, no direction component of the ray or its clipped part between 0 and 1e-15 in size."
  },
  {
   "property": "C258",
   "status": "partial",
   "theorems": [
    "C258_ray_distance_refuted"
   ],
   "note": "Refuted by code: the number is the distance times the length of the part of the ray in the box of the mesh, for every mesh and ray; it differs from the distance unless that length is 1."
  },
  {
   "property": "C259",
   "status": "partial",
   "theorems": [
    "C259_ray_leaves_refuted"
   ],
   "note": "Refuted by code: with more than one triangle per leaf every ray that meets a triangle gives an AttributeError."
  },
  {
   "property": "C260",
   "status": "proved",
   "theorems": [
    "C260_sphere_distance"
   ],
   "note": "sqrt is exact at the squared distance."
  },
  {
   "property": "C261",
   "status": "proved",
   "theorems": [
    "C261_sphere_bounds"
   ],
   "note": ""
  },
  {
   "property": "C262",
   "status": "proved",
   "theorems": [
    "C262_sphere_gradient"
   ],
   "note": "sqrt is exact at the squared distance."
  },
  {
   "property": "C263",
   "status": "proved",
   "theorems": [
    "C263_sphere_lipschitz",
    "C263_tube_lipschitz"
   ],
   "note": "sqrt is exact at the squared distances."
  },
  {
   "property": "C264",
   "status": "proved",
   "theorems": [
    "C264_axis_distance",
    "C264_degenerate"
   ],
   "note": "sqrt is exact at the squared distance."
  },
  {
   "property": "C265",
   "status": "proved",
   "theorems": [
    "C265_solid_bounds"
   ],
   "note": "sqrt is exact at the three numbers under the roots."
  },
  {
   "property": "C266",
   "status": "partial",
   "theorems": [
    "C266_bounds_contain_partial",
    "C266_bounds_contain_refuted"
   ],
   "note": "Refuted by code: the values do not depend on the position along the axis, so every value is taken again outside any box. Proved for points between the planes of the two ends of a cylinder."
  },
  {
   "property": "C267",
   "status": "proved",
   "theorems": [
    "C267_cylinder_gradient"
   ],
   "note": "sqrt is exact at the squared distance."
  },
  {
   "property": "C268",
   "status": "proved",
   "theorems": [
    "C268_tube_gradient"
   ],
   "note": ""
  },
  {
   "property": "C269",
   "status": "partial",
   "theorems": [
    "C269_tube_gradient_unit_refuted"
   ],
   "note": "Refuted by code: half way through the wall of a vertical tube the gradient is the zero vector, whatever the radius, the thickness and the height."
  },
  {
   "property": "C270",
   "status": "proved",
   "theorems": [
    "C270_base_gradient",
    "C270_base_default"
   ],
   "note": "sqrt is exact at the squared length of the gradient."
  },
  {
   "property": "C271",
   "status": "proved",
   "theorems": [
    "C271_parametrisation",
    "C271_within_bounds"
   ],
   "note": "The angle is given by its cosine and sine; sqrt is exact at the numbers under the roots."
  },
  {
   "property": "C272",
   "status": "proved",
   "theorems": [
    "C272_parametric_gradient"
   ],
   "note": "The angle is given by its cosine and sine; sqrt is exact at the numbers under the roots."
  },
  {
   "property": "C273",
   "status": "partial",
   "theorems": [
    "C273_any_axis_partial",
    "C273_any_axis_refuted"
   ],
   "note": "Refuted by code: for every axis along -x the helper vector is parallel to the axis and the constructor divides by zero. Proved for all other axes."
  },
  {
   "property": "C274",
   "status": "partial",
   "theorems": [
    "C274_assign_radius_refuted"
   ],
   "note": "Refuted by code: evaluate uses the new radius, implicit and bounds keep the old one, so implicit is the difference of the radii at every evaluated point."
  },
  {
   "property": "C275",
   "status": "partial",
   "theorems": [
    "C275_default_derivative_partial",
    "C275_default_derivative_refuted"
   ],
   "note": "Refuted by code: the difference is multiplied by half the step instead of divided by twice the step, so derivative is the true one times 1e-6 and second_derivative the true one times 1e-12. Proved: these two factors, exactly, for all curves of degree two."
  },
  {
   "property": "C276",
   "status": "proved",
   "theorems": [
    "C276_curvature_of_plain_curve"
   ],
   "note": "sqrt is exact at the squared length of the derivative."
  },
  {
   "property": "C277",
   "status": "proved",
   "theorems": [
    "C277_frame_of_curve",
    "C277_tangent_of_curve"
   ],
   "note": "sqrt is exact at the squared lengths that are normalised."
  },
  {
   "property": "C278",
   "status": "partial",
   "theorems": [
    "C278_call_partial",
    "C278_call_refuted"
   ],
   "note": "Refuted by code: a list of one or no parameter raises TypeError. Proved for lists of at least two."
  },
  {
   "property": "C279",
   "status": "proved",
   "theorems": [
    "C279_points"
   ],
   "note": ""
  },
  {
   "property": "C280",
   "status": "proved",
   "theorems": [
    "C280_cubic_derivatives",
    "C280_two_cubic_classes"
   ],
   "note": ""
  },
  {
   "property": "C281",
   "status": "proved",
   "theorems": [
    "C281_cubic_is_bezier",
    "C281_cubic_hull"
   ],
   "note": ""
  },
  {
   "property": "C282",
   "status": "partial",
   "theorems": [
    "C282_end_derivatives_partial",
    "C282_end_derivatives_refuted"
   ],
   "note": "Refuted by code: c0 and c1 are Bezier points; the derivatives are 3 (c0 - p0) and 3 (p1 - c1), which is proved, as are the end points."
  },
  {
   "property": "C283",
   "status": "partial",
   "theorems": [
    "C283_surface_derivatives_partial",
    "C283_surface_derivatives_refuted"
   ],
   "note": "Refuted by code: within one step of the edges the difference is one-sided and off by the step times the coefficient of degree two. Proved elsewhere, and everywhere for surfaces of degree one."
  },
  {
   "property": "C284",
   "status": "partial",
   "theorems": [
    "C284_second_derivatives_partial",
    "C284_second_derivatives_refuted"
   ],
   "note": "Refuted by code: within one step of the edges second_derivative_uu and _vv are half the true value, however small the step. Proved two steps away from the edges, and for _uv one step away."
  },
  {
   "property": "C285",
   "status": "partial",
   "theorems": [
    "C285_inside_domain_partial",
    "C285_inside_domain_refuted"
   ],
   "note": "Refuted by code: derivatives and normal evaluate one step outside, and derivative_u takes every domain to be the unit square. Proved for derivative_u, derivative_v and the second derivatives on the unit square."
  },
  {
   "property": "C286",
   "status": "proved",
   "theorems": [
    "C286_surface_plane"
   ],
   "note": "sqrt is exact at the squared lengths that are normalised."
  },
  {
   "property": "C287",
   "status": "proved",
   "theorems": [
    "C287_ruled_surface"
   ],
   "note": ""
  },
  {
   "property": "C288",
   "status": "partial",
   "theorems": [
    "C288_ruled_u_partial",
    "C288_ruled_u_refuted"
   ],
   "note": "Refuted by code: evaluate maps u to the interval of each curve and derivative_u does not multiply by its length; it is wrong wherever it is not zero for intervals of any length other than one. Proved for curves with intervals of length one, and the factor for intervals of equal length."
  },
  {
   "property": "C289",
   "status": "proved",
   "theorems": [
    "C289_bilinear_corners",
    "C289_bilinear_derivatives",
    "C289_bilinear_hull"
   ],
   "note": ""
  },
  {
   "property": "C290",
   "status": "proved",
   "theorems": [
    "C290_callback_derivatives"
   ],
   "note": ""
  },
  {
   "property": "C291",
   "status": "proved",
   "theorems": [
    "C291_callback_normal"
   ],
   "note": "sqrt is exact at the squared length of the cross product."
  },
  {
   "property": "C292",
   "status": "proved",
   "theorems": [
    "C292_evaluated_points",
    "C292_implicit",
    "C292_unit_normal"
   ],
   "note": "sqrt is exact at the squared distance."
  },
  {
   "property": "C293",
   "status": "proved",
   "theorems": [
    "C293_point_on_curve_nearest",
    "C293_centre_fails"
   ],
   "note": "sqrt is exact at the squared distance and at the squared sine of the direction."
  },
  {
   "property": "C294",
   "status": "partial",
   "theorems": [
    "C294_parameter_of_point_partial",
    "C294_parameter_of_point_refuted"
   ],
   "note": "Refuted by code: the parameter is an arccos, so for every point below the origin it is the parameter of the mirrored point. Proved for all points that are not below the origin."
  },
  {
   "property": "C295",
   "status": "proved",
   "theorems": [
    "C295_common_points",
    "C295_no_common_point",
    "C295_equal_circles"
   ],
   "note": "sqrt is exact at the squared distance of the origins and at the squared half chord."
  },
  {
   "property": "C296",
   "status": "partial",
   "theorems": [
    "C296_third_coordinate_partial",
    "C296_third_coordinate_refuted"
   ],
   "note": "Refuted by code: origin[-1] of an origin with two coordinates is its y coordinate. Proved for origins with three coordinates."
  },
  {
   "property": "C297",
   "status": "partial",
   "theorems": [
    "C297_tangents_partial",
    "C297_tangents_refuted"
   ],
   "note": "Refuted by code: the arguments of arctan2 are exchanged, so the points belong to the given point mirrored at the diagonal; wrong for every point off the diagonal. Proved: the points are right for the mirrored point, hence for points on the diagonal."
  },
  {
   "property": "C298",
   "status": "partial",
   "theorems": [
    "C298_closest_parameter_partial",
    "C298_closest_parameter_refuted"
   ],
   "note": "Refuted by code: a quarter turn is subtracted from the arccos; wrong for every point that is not on one half line from the origin. Proved: the value of the parameter, for all points."
  },
  {
   "property": "C299",
   "status": "proved",
   "theorems": [
    "C299_step_has_height",
    "C299_height_has_step",
    "C299_curve_step"
   ],
   "note": "sqrt is exact at the arguments used."
  },
  {
   "property": "C300",
   "status": "partial",
   "theorems": [
    "C300_length_partial",
    "C300_length_refuted"
   ],
   "note": "Refuted by code: the first and the last chord are halved although chords, not end points, are summed; the result is smaller than the length for every line longer than one step. Proved: it is too small by at most one step, and the value for lines of at most one step."
  },
  {
   "property": "C301",
   "status": "proved",
   "theorems": [
    "C301_refinement_keeps_curve"
   ],
   "note": "Knots nearer than the tolerances of the code are equal, new knots are below the end of the domain."
  },
  {
   "property": "C302",
   "status": "proved",
   "theorems": [
    "C302_multiplicities"
   ],
   "note": "Under the hypotheses of C301."
  },
  {
   "property": "C303",
   "status": "partial",
   "theorems": [
    "C303_nothing_to_insert_refuted"
   ],
   "note": "Refuted by code: the call raises for every such input."
  },
  {
   "property": "C304",
   "status": "partial",
   "theorems": [
    "C304_list_sorted_in_place_refuted",
    "C304_list_kept_partial"
   ],
   "note": "Refuted by code: with a list and without a second list the caller's array is sorted in place. Proved: it is kept in the other cases."
  },
  {
   "property": "C305",
   "status": "partial",
   "theorems": [
    "C305_density_two_partial",
    "C305_repeated_knots_refuted",
    "C305_density_three_refuted"
   ],
   "note": "Refuted by code: with repeated knots the list is read past its end for every density above 1, and from density 3 on the last knot is replaced by an earlier one, which gives an unsorted knot vector. Proved for density 2 and distinct knots."
  },
  {
   "property": "C306",
   "status": "partial",
   "theorems": [
    "C306_removal_deletes_a_row_refuted",
    "C306_insert_remove_refuted",
    "C306_removal_count_partial"
   ],
   "note": "Refuted by code: the distance test adds the columns instead of subtracting them, so with equal weights above half the tolerance one row is deleted and the others are kept, whatever the curve. Proved: the number of rows and the weights. Only num = 1."
  },
  {
   "property": "C307",
   "status": "partial",
   "theorems": [
    "C307_from_points_refuted"
   ],
   "note": "Refuted by code: for arrays with rows of at least one number the constructor raises, so do union and intersection of any two 2D boxes."
  },
  {
   "property": "C308",
   "status": "proved",
   "theorems": [
    "C308_from_points"
   ],
   "note": ""
  },
  {
   "property": "C309",
   "status": "proved",
   "theorems": [
    "C309_union"
   ],
   "note": ""
  },
  {
   "property": "C310",
   "status": "proved",
   "theorems": [
    "C310_expand",
    "C310_combine"
   ],
   "note": ""
  },
  {
   "property": "C311",
   "status": "proved",
   "theorems": [
    "C311_intersects",
    "C311_overlap"
   ],
   "note": ""
  },
  {
   "property": "C312",
   "status": "proved",
   "theorems": [
    "C312_intersection"
   ],
   "note": ""
  },
  {
   "property": "C313",
   "status": "partial",
   "theorems": [
    "C313_contains_partial",
    "C313_contains_refuted"
   ],
   "note": "Refuted by code: the 3D method ignores z, so every point above or below the box is reported inside. Proved in 2D, and in 3D for points between the z bounds."
  },
  {
   "property": "C314",
   "status": "partial",
   "theorems": [
    "C314_copy_refuted",
    "C314_copy_partial"
   ],
   "note": "Refuted by code: the corners are exchanged, so the copy of every box that is more than a point contains no point. Proved: it is equal to the box exactly when that is a point."
  },
  {
   "property": "C315",
   "status": "proved",
   "theorems": [
    "C315_centroid"
   ],
   "note": ""
  },
  {
   "property": "C316",
   "status": "partial",
   "theorems": [
    "C316_in_place_refuted",
    "C316_in_place_partial"
   ],
   "note": "Refuted by code: the methods return nothing, so the name is bound to None. Proved: the object itself gets the sum, difference or multiple."
  },
  {
   "property": "C317",
   "status": "partial",
   "theorems": [
    "C317_parallel_partial",
    "C317_parallel_refuted",
    "C317_opposite_refuted"
   ],
   "note": "Refuted by code: for every non-zero vector there is a positive multiple reported as not parallel and a non-parallel vector reported as parallel; in 2D a vector and its opposite are never both parallel to a third. Proved for unit vectors of space."
  },
  {
   "property": "C318",
   "status": "partial",
   "theorems": [
    "C318_perpendicular_partial",
    "C318_perpendicular_refuted"
   ],
   "note": "Refuted by code: any vector has a positive multiple that is reported perpendicular to a given one. Proved: perpendicular vectors are found and the answer is the bound on the dot product."
  },
  {
   "property": "C319",
   "status": "partial",
   "theorems": [
    "C319_length_refuted",
    "C319_length_partial"
   ],
   "note": "Refuted by code: for every 3D vector the call raises. Proved for 2D vectors."
  },
  {
   "property": "C320",
   "status": "proved",
   "theorems": [
    "C320_compose",
    "C320_affine",
    "C320_translation"
   ],
   "note": ""
  },
  {
   "property": "C321",
   "status": "partial",
   "theorems": [
    "C321_transform_refuted",
    "C321_cells_refuted"
   ],
   "note": "Refuted by code: transform raises for every vector and matrix, and a matrix made from a list is the identity."
  },
  {
   "property": "C322",
   "status": "partial",
   "theorems": [
    "C322_frame_refuted",
    "C322_frame_partial"
   ],
   "note": "Refuted by code: the round trip holds exactly for frames at zero whose matrix of axes is symmetric. Proved: what is returned."
  },
  {
   "property": "C323",
   "status": "partial",
   "theorems": [
    "C323_align_refuted"
   ],
   "note": "Refuted by code: for every input the matrix is overwritten with the second system and the call raises."
  },
  {
   "property": "C324",
   "status": "partial",
   "theorems": [
    "C324_rotation_refuted",
    "C324_rotation_3d_refuted",
    "C324_rotation_partial"
   ],
   "note": "Refuted by code: the 2D matrix keeps the origin only if it is zero or the sine is, the 3D matrix only if it is zero. Proved: rotations about zero, and what the 2D method does without an origin."
  },
  {
   "property": "C325",
   "status": "proved",
   "theorems": [
    "C325_rotate_to"
   ],
   "note": "The square root is exact for the one number it is taken of."
  },
  {
   "property": "C326",
   "status": "partial",
   "theorems": [
    "C326_rotate_to_refuted",
    "C326_rotate_to_partial"
   ],
   "note": "Refuted by code: whenever a component of the cross product is above the tolerance the method returns False and leaves the matrix; for opposite vectors the matrix keeps the vector. Proved: for multiples the vector is kept, which is right for positive factors."
  },
  {
   "property": "C327",
   "status": "partial",
   "theorems": [
    "C327_collection_refuted"
   ],
   "note": "Refuted by code: no sequence of calls changes a collection, nothing is in it, its count is 0."
  },
  {
   "property": "C328",
   "status": "proved",
   "theorems": [
    "C328_plane_line"
   ],
   "note": "For lines whose end points were not set after construction."
  },
  {
   "property": "C329",
   "status": "partial",
   "theorems": [
    "C329_moved_line_refuted"
   ],
   "note": "Refuted by code: the origin of the first construction is used; the point is on the new line exactly if that origin is."
  },
  {
   "property": "C330",
   "status": "partial",
   "theorems": [
    "C330_plane_plane_refuted",
    "C330_plane_plane_partial"
   ],
   "note": "Refuted by code: the line starts at zero, so it is on both planes exactly if both contain zero. Proved: its direction is parallel to both planes."
  },
  {
   "property": "C331",
   "status": "partial",
   "theorems": [
    "C331_coplanar_refuted",
    "C331_coplanar_partial"
   ],
   "note": "Refuted by code: any two planes with the same origin are reported coplanar. Proved: the answer says whether the second origin is near the first plane."
  },
  {
   "property": "C332",
   "status": "partial",
   "theorems": [
    "C332_set_origin_refuted"
   ],
   "note": "Refuted by code: evaluate and copy still use the old origin; setting the normal raises."
  },
  {
   "property": "C333",
   "status": "partial",
   "theorems": [
    "C333_line_line_refuted",
    "C333_line_line_partial"
   ],
   "note": "Refuted by code: both parameters have the wrong sign for every pair of lines that meet. Proved for parallel lines."
  },
  {
   "property": "C334",
   "status": "partial",
   "theorems": [
    "C334_cross_partial",
    "C334_lifted_refuted",
    "C334_infinite_refuted"
   ],
   "note": "Refuted by code: lines in a plane z = h with h above the tolerance never meet, and an infinite line is treated as the segment from its origin to origin plus direction, the first line as infinite. Proved for segments in a plane z = h with h up to the tolerance; the parameters are returned in exchanged order."
  },
  {
   "property": "C335",
   "status": "partial",
   "theorems": [
    "C335_colinear_refuted"
   ],
   "note": "Refuted by code: a unit segment is reported collinear with all its shifted copies, and a segment is collinear with itself only if its length is near 1."
  },
  {
   "property": "C336",
   "status": "proved",
   "theorems": [
    "C336_three_points",
    "C336_not_in_line"
   ],
   "note": "The square root is exact for the one number it is taken of."
  },
  {
   "property": "C337",
   "status": "partial",
   "theorems": [
    "C337_circle_points_refuted"
   ],
   "note": "Refuted by code: the centre is ignored; the statement holds exactly for circles about zero."
  },
  {
   "property": "C338",
   "status": "proved",
   "theorems": [
    "C338_store_positions",
    "C338_store_grows",
    "C338_store_merges"
   ],
   "note": ""
  },
  {
   "property": "C339",
   "status": "partial",
   "theorems": [
    "C339_close_points_refuted",
    "C339_merged_points_partial"
   ],
   "note": "Refuted by code: the hash of a point is that of the bytes of the rounded coordinates, so a point with tiny negative coordinates (rounded to -0.0) is never merged with the origin, whatever the distance. Two points are merged exactly when their rounded coordinates, signs of zeros included, are the same, and then they are within one grid step of each other."
  },
  {
   "property": "C340",
   "status": "proved",
   "theorems": [
    "C340_vertices",
    "C340_unchecked"
   ],
   "note": ""
  },
  {
   "property": "C341",
   "status": "partial",
   "theorems": [
    "C341_edge_ends_refuted",
    "C341_edge_ends_partial"
   ],
   "note": "Refuted by code: asked for the edge from a vertex to itself it returns an edge from that vertex to another one. The statement holds, with no repeated edges, when the two ends have different hashes."
  },
  {
   "property": "C342",
   "status": "partial",
   "theorems": [
    "C342_face_holes_refuted",
    "C342_face_outer_partial",
    "C342_face_new_partial"
   ],
   "note": "Refuted by code: a request without holes gets an existing face that has them, and a request with holes raises TypeError as soon as a face with the same surface and outer loop is there. Without such a face the request is met; for requests without holes the returned face has the given surface and outer loop."
  },
  {
   "property": "C343",
   "status": "partial",
   "theorems": [
    "C343_shells_refuted"
   ],
   "note": "Refuted by code: with the default arguments they always raise TypeError (raise NotImplemented); without checking they append."
  },
  {
   "property": "C344",
   "status": "partial",
   "theorems": [
    "C344_hash_refuted"
   ],
   "note": "Refuted by code: the generated hashes reach lists or arrays, so hashing any edge, loop or face raises TypeError and so does get_ends_parameters for every edge; vertices have the hash of their representation."
  },
  {
   "property": "C345",
   "status": "proved",
   "theorems": [
    "C345_table_reads",
    "C345_table_rows",
    "C345_table_neighbours"
   ],
   "note": ""
  },
  {
   "property": "C346",
   "status": "partial",
   "theorems": [
    "C346_delete_refuted",
    "C346_delete_partial"
   ],
   "note": "Refuted by code: the entry stays readable in the other order. No other entry is changed."
  },
  {
   "property": "C347",
   "status": "partial",
   "theorems": [
    "C347_loop_chain_refuted",
    "C347_loop_vertices_partial"
   ],
   "note": "Refuted by code: the first two edges are opposite sides and share no vertex, and so are the last two. The vertices are the ends of the boundary curves, each once, and each edge has the vertices of its curve, for every surface on which the function returns."
  },
  {
   "property": "C348",
   "status": "partial",
   "theorems": [
    "C348_isocurve_refuted",
    "C348_isocurve_partial",
    "C348_isocurve_range",
    "C348_isocurve_parts"
   ],
   "note": "Refuted by code: on a surface with all weights w the point of the iso curve is w times the point of the surface, which is right only for w = 1 or at the origin. For weight one both directions are right; degree, knots and interval are those of the surface for all weights; out of range raises ValueError."
  },
  {
   "property": "C349",
   "status": "proved",
   "theorems": [
    "C349_unique_points",
    "C349_unique_order"
   ],
   "note": ""
  },
  {
   "property": "C350",
   "status": "proved",
   "theorems": [
    "C350_pairs",
    "C350_two_points"
   ],
   "note": ""
  },
  {
   "property": "C351",
   "status": "partial",
   "theorems": [
    "C351_boundary_parameters_refuted",
    "C351_boundary_parameters_partial"
   ],
   "note": "Refuted by code: on surfaces with constant weight w other than one the reported parameters give the point divided by w. Holds for surfaces of weight one."
  },
  {
   "property": "C352",
   "status": "proved",
   "theorems": [
    "C352_kept_points",
    "C352_none_lost"
   ],
   "note": ""
  },
  {
   "property": "C353",
   "status": "proved",
   "theorems": [
    "C353_pop_order"
   ],
   "note": ""
  },
  {
   "property": "C354",
   "status": "partial",
   "theorems": [
    "C354_remove_refuted",
    "C354_remove_pair_refuted",
    "C354_delete_partial"
   ],
   "note": "Refuted by code: the result of np.delete is dropped, so a removed point is still the closest and can be removed again while the size goes down; of two points the second can be removed last only if it is removed first, otherwise ValueError. Deleting changes nothing but the size."
  },
  {
   "property": "C355",
   "status": "partial",
   "theorems": [
    "C355_point_order_refuted",
    "C355_point_order_partial"
   ],
   "note": "Refuted by code: around every position there are three points each before the next in a circle, and three points of which the first equals the second and the second the third but not the first the third. Proved: the comparison is antisymmetric, and for points whose coordinates are equal or further apart than the tolerance it is exactly the order by x, then y."
  },
  {
   "property": "C356",
   "status": "proved",
   "theorems": [
    "C356_orientation"
   ],
   "note": ""
  },
  {
   "property": "C357",
   "status": "proved",
   "theorems": [
    "C357_line",
    "C357_trivial"
   ],
   "note": ""
  },
  {
   "property": "C358",
   "status": "partial",
   "theorems": [
    "C358_lines_refuted",
    "C358_lines_partial"
   ],
   "note": "Refuted by code: when the starts are within the tolerance of each other the start of the first is returned although it is not on the second line. Proved: nothing exactly for parallel lines; the unique common point when no ends are within the tolerance."
  },
  {
   "property": "C359",
   "status": "partial",
   "theorems": [
    "C359_segment_order_refuted",
    "C359_segment_order_partial",
    "C359_bundle_partial",
    "C359_raises"
   ],
   "note": "Refuted by code: when the second ends at the sweep point both comparisons can be positive. Proved: opposite answers when the second misses the sweep point, goes on beyond it, or starts at it; transitive for segments starting at the sweep point; an exception when neither starts there."
  },
  {
   "property": "C360",
   "status": "proved",
   "theorems": [
    "C360_crossing",
    "C360_crossing_point"
   ],
   "note": ""
  },
  {
   "property": "C361",
   "status": "proved",
   "theorems": [
    "C361_bound",
    "C361_bound_found"
   ],
   "note": ""
  },
  {
   "property": "C362",
   "status": "proved",
   "theorems": [
    "C362_sorted_points"
   ],
   "note": ""
  },
  {
   "property": "C363",
   "status": "proved",
   "theorems": [
    "C363_sides"
   ],
   "note": ""
  },
  {
   "property": "C364",
   "status": "proved",
   "theorems": [
    "C364_sequence"
   ],
   "note": ""
  },
  {
   "property": "C365",
   "status": "partial",
   "theorems": [
    "C365_locate_refuted",
    "C365_locate_partial"
   ],
   "note": "Refuted by code: for a key that is present the first node of the whole sequence is returned, whatever its key; for a key above all others the tail node is returned instead of None. Proved: right for an absent key that has a larger one."
  },
  {
   "property": "C366",
   "status": "proved",
   "theorems": [
    "C366_lu_factors"
   ],
   "note": ""
  },
  {
   "property": "C367",
   "status": "proved",
   "theorems": [
    "C367_lu_solve"
   ],
   "note": ""
  },
  {
   "property": "C368",
   "status": "proved",
   "theorems": [
    "C368_invert"
   ],
   "note": ""
  },
  {
   "property": "C369",
   "status": "partial",
   "theorems": [
    "C369_inv_keeps_argument_refuted",
    "C369_inv_argument_partial"
   ],
   "note": "Refuted by code: the decomposition runs in the memory of the argument. Proved instead: afterwards the argument holds the packed triangular factors of its row permutation and the result is the inverse of the original."
  },
  {
   "property": "C370",
   "status": "proved",
   "theorems": [
    "C370_reduced_hessian"
   ],
   "note": ""
  },
  {
   "property": "C371",
   "status": "proved",
   "theorems": [
    "C371_reduce_and_back_solve"
   ],
   "note": ""
  },
  {
   "property": "C372",
   "status": "partial",
   "theorems": [
    "C372_linear_solve_refuted"
   ],
   "note": "Refuted by code: the eliminations are not applied to the right-hand side. For every 2x2 matrix without exchange the answer is right exactly when the lower left entry or the first right-hand side value is 0. C371 gives what is solved instead."
  },
  {
   "property": "C373",
   "status": "proved",
   "theorems": [
    "C373_projection",
    "C373_closest"
   ],
   "note": ""
  },
  {
   "property": "C374",
   "status": "proved",
   "theorems": [
    "C374_line_search"
   ],
   "note": ""
  },
  {
   "property": "C375",
   "status": "proved",
   "theorems": [
    "C375_strong_wolfe"
   ],
   "note": ""
  },
  {
   "property": "C376",
   "status": "proved",
   "theorems": [
    "C376_backtrack"
   ],
   "note": ""
  },
  {
   "property": "C377",
   "status": "proved",
   "theorems": [
    "C377_bounded_descent"
   ],
   "note": ""
  },
  {
   "property": "C378",
   "status": "proved",
   "theorems": [
    "C378_minimiser_stays"
   ],
   "note": ""
  },
  {
   "property": "C379",
   "status": "partial",
   "theorems": [
    "C379_linear_not_minimised_refuted",
    "C378_minimiser_stays"
   ],
   "note": "Refuted by code: with a constant gradient (a linear objective) the curvature condition can never hold, so no step is accepted and the start is returned as if it were the result, whatever the box. True when the start already is a minimiser."
  },
  {
   "property": "C380",
   "status": "proved",
   "theorems": [
    "C380_shapes",
    "C380_rectangle",
    "C380_xor"
   ],
   "note": ""
  },
  {
   "property": "C381",
   "status": "proved",
   "theorems": [
    "C381_zero",
    "C381_zero_outside"
   ],
   "note": ""
  },
  {
   "property": "C382",
   "status": "proved",
   "theorems": [
    "C382_contours"
   ],
   "note": ""
  },
  {
   "property": "C383",
   "status": "proved",
   "theorems": [
    "C383_contours_join",
    "C383_contours_join_right"
   ],
   "note": ""
  },
  {
   "property": "C384",
   "status": "proved",
   "theorems": [
    "C384_interpolate",
    "C384_bilinear_exact",
    "C384_degenerate"
   ],
   "note": ""
  },
  {
   "property": "C385",
   "status": "proved",
   "theorems": [
    "C385_merge"
   ],
   "note": ""
  },
  {
   "property": "C386",
   "status": "proved",
   "theorems": [
    "C386_fold"
   ],
   "note": ""
  },
  {
   "property": "C387",
   "status": "proved",
   "theorems": [
    "C387_horizontal_edges",
    "C387_tiled"
   ],
   "note": ""
  },
  {
   "property": "C388",
   "status": "partial",
   "theorems": [
    "C388_vertical_edges_refuted",
    "C388_vertical_edges_partial"
   ],
   "note": "Refuted by code: as soon as one of the two trees is subdivided the halves away from the common side are taken, so every edge connects two cells with a gap between them. True for two undivided cells."
  },
  {
   "property": "C389",
   "status": "partial",
   "theorems": [
    "C389_traversal_partial",
    "C389_filter_refuted",
    "C389_border_cells_refuted"
   ],
   "note": "Refuted by code: a filter is only asked at the first level, below it the callback gets every leaf; and the cells inside collapsed empty and full parts are visited too, so on a collapsed tree all cells of the original tree are. True: with the default filter it visits all leaves below the node in order."
  },
  {
   "property": "C390",
   "status": "partial",
   "theorems": [
    "C390_nd_max_partial",
    "C390_nd_max_overwrites_refuted"
   ],
   "note": "Refuted by code: the result is written into the array argument. The returned values are right."
  },
  {
   "property": "C391",
   "status": "proved",
   "theorems": [
    "C391_find_span"
   ],
   "note": ""
  },
  {
   "property": "C392",
   "status": "partial",
   "theorems": [
    "C392_basis_closed_form",
    "C392_linear_basis_partial",
    "C392_basis_functions_refuted"
   ],
   "note": "Refuted by code: left[p - r] is read instead of left[j - r]. For every degree p >= 2 only two entries are non-zero, the last one is 0 where the true basis function is positive. The closed form is proved for all degrees, the values are right for p = 1."
  },
  {
   "property": "C393",
   "status": "partial",
   "theorems": [
    "C393_end_of_domain_refuted"
   ],
   "note": "Refuted by code: at u = U[n] the first division of calc_basis_functions is 1/0 for every p >= 2 (right[1] = 0 and left[p] is still 0); numpy returns nan, the model stops with ZeroDivision."
  },
  {
   "property": "C394",
   "status": "partial",
   "theorems": [
    "C394_point_of_two_control_points_refuted",
    "C394_linear_curve_partial"
   ],
   "note": "Refuted by code: for every p only the first two control points of the span enter (the result is given exactly); right for p = 1."
  },
  {
   "property": "C395",
   "status": "partial",
   "theorems": [
    "C395_binomial_partial",
    "C395_binomial_refuted"
   ],
   "note": "Refuted by code from k = 21 on: the products are 64-bit integers and wrap around. Proved for all i <= k <= 20."
  },
  {
   "property": "C396",
   "status": "partial",
   "theorems": [
    "C396_rational_derivatives_partial"
   ],
   "note": "Proved for at most 21 arrays (orders up to 20): beyond that calcKoverI overflows (C395); and for float arrays: see C397 for arrays of ints."
  },
  {
   "property": "C397",
   "status": "partial",
   "theorems": [
    "C397_nurbs_derivatives_refuted",
    "C397_nurbs_derivatives_never"
   ],
   "note": "Refuted by code: calc_bspline_derivatives always appends at least one array of ints, and calc_rational_curve_derivatives subtracts floats from it in place: TypeError for every input for which the B-spline derivatives are returned; it never returns."
  },
  {
   "property": "C398",
   "status": "partial",
   "theorems": [
    "C398_surface_point_refuted",
    "C398_surface_point_never"
   ],
   "note": "Refuted by code: Sw is an array of ints and floats are added to it in place, TypeError for every valid input; neither function ever returns."
  },
  {
   "property": "C399",
   "status": "partial",
   "theorems": [
    "C399_elementwise",
    "C399_arguments_kept_refuted"
   ],
   "note": "Refuted by code: the result is right, but the first array is overwritten with it whenever an element is replaced."
  },
  {
   "property": "C400",
   "status": "proved",
   "theorems": [
    "C400_find_similar",
    "C400_empty"
   ],
   "note": ""
  },
  {
   "property": "C401",
   "status": "proved",
   "theorems": [
    "C401_cartesian_product",
    "C401_rows"
   ],
   "note": ""
  },
  {
   "property": "C402",
   "status": "proved",
   "theorems": [
    "C402_grids",
    "C402_corners_and_bounds"
   ],
   "note": ""
  },
  {
   "property": "C403",
   "status": "proved",
   "theorems": [
    "C403_insert"
   ],
   "note": ""
  },
  {
   "property": "C404",
   "status": "partial",
   "theorems": [
    "C404_split_dim_partial",
    "C404_index_refuted"
   ],
   "note": "Refuted by code: the index is made non-negative once by hand and once more by Python, so index -n-1 splits the last dimension and appends the whole shape again; the rest holds for indices within the shape."
  },
  {
   "property": "C405",
   "status": "proved",
   "theorems": [
    "C405_add_dim",
    "C405_remove_dim",
    "C405_remove_add"
   ],
   "note": ""
  },
  {
   "property": "C406",
   "status": "partial",
   "theorems": [
    "C406_split_by_parts_partial",
    "C406_one_piece_per_part_refuted"
   ],
   "note": "Refuted by code: there is always one more piece than parts, empty when the parts use up the array; the pieces still give the array and have the lengths asked for."
  },
  {
   "property": "C407",
   "status": "partial",
   "theorems": [
    "C407_divide_interval_partial",
    "C407_within_interval_refuted"
   ],
   "note": "Refuted by code: unless the step divides the length the last interval ends beyond the end; the intervals are consecutive, cover the interval and are no more than needed."
  },
  {
   "property": "C408",
   "status": "proved",
   "theorems": [
    "C408_cubic_spline",
    "C408_in_the_box"
   ],
   "note": ""
  },
  {
   "property": "C409",
   "status": "partial",
   "theorems": [
    "C409_append_vector_partial",
    "C409_append_vector_refuted",
    "C409_scalar_refuted",
    "C409_append_matrix"
   ],
   "note": "Refuted by code: a vector as long as the number of rows is appended as a column, a number is an AttributeError; vectors of other lengths and matrices are appended as stated."
  },
  {
   "property": "C410",
   "status": "partial",
   "theorems": [
    "C410_groups",
    "C410_spread",
    "C410_order_irrelevant",
    "C410_near_a_value_refuted"
   ],
   "note": "Refuted by code: four values in steps of the tolerance give one result, further from the first than the tolerance; the rest is proved."
  },
  {
   "property": "C411",
   "status": "partial",
   "theorems": [
    "C411_operations_partial",
    "C411_every_piece_once",
    "C411_unknown_operation",
    "C411_disjoint_curves_refuted",
    "C411_two_crossings_refuted"
   ],
   "note": "Refuted by code: curves without intersections are a ValueError for every operation, and two crossings at most 1e-5 apart count as one; the selection is proved with crossings counted up to that tolerance."
  },
  {
   "property": "C412",
   "status": "proved",
   "theorems": [
    "C412_exact_for_polynomials",
    "C412_error_estimate"
   ],
   "note": ""
  },
  {
   "property": "C413",
   "status": "proved",
   "theorems": [
    "C413_linear_systems"
   ],
   "note": ""
  },
  {
   "property": "C414",
   "status": "proved",
   "theorems": [
    "C414_trace",
    "C414_backward"
   ],
   "note": ""
  },
  {
   "property": "C415",
   "status": "partial",
   "theorems": [
    "C415_ends_partial",
    "C415_ends_refuted"
   ],
   "note": "Refuted by code: a step is repeated for ever when even the smallest step hmin (or the rest of the interval) is not accurate enough; when every step is accurate enough the loop ends."
  },
  {
   "property": "C416",
   "status": "proved",
   "theorems": [
    "C416_polynomial_values",
    "C416_cubics_integrated"
   ],
   "note": ""
  },
  {
   "property": "C417",
   "status": "proved",
   "theorems": [
    "C417_runs",
    "C417_min"
   ],
   "note": ""
  },
  {
   "property": "C418",
   "status": "proved",
   "theorems": [
    "C418_delete_min",
    "C418_insert",
    "C418_empty"
   ],
   "note": ""
  },
  {
   "property": "C419",
   "status": "proved",
   "theorems": [
    "C419_sorted_output",
    "C419_remaining_sorted"
   ],
   "note": ""
  },
  {
   "property": "C420",
   "status": "partial",
   "theorems": [
    "C420_support_vector_partial",
    "C420_empty_refuted"
   ],
   "note": "Refuted by code: without vertices, or when every dot product is at most the start value -sys.float_info.max, the zero vector is returned, which is no vertex; otherwise the statement holds."
  },
  {
   "property": "C421",
   "status": "proved",
   "theorems": [
    "C421_closest_pair",
    "C421_squared_distance"
   ],
   "note": ""
  },
  {
   "property": "C422",
   "status": "partial",
   "theorems": [
    "C422_color_components_refuted"
   ],
   "note": "Refuted by code: the methods are stubs; every colour reads as failure with components zero, setting reports failure and changes nothing."
  },
  {
   "property": "C423",
   "status": "partial",
   "theorems": [
    "C423_any_surface_refuted",
    "C423_corner_points_partial"
   ],
   "note": "Refuted by code: the surface object itself is unpacked into the corners of the domain instead of its interval, so that every object that cannot be iterated is an error; for a pair of corner points in place of the surface the numbers are right."
  },
  {
   "property": "C424",
   "status": "partial",
   "theorems": [
    "C424_default_counts_refuted",
    "C424_given_counts_partial",
    "C424_density_ignores_u"
   ],
   "note": "Refuted by code: without counts the call always fails, and a given u count without a v count is replaced by 25; two given counts are kept and a single v count is used for both directions."
  },
  {
   "property": "C425",
   "status": "proved",
   "theorems": [
    "C425_segments"
   ],
   "note": ""
  },
  {
   "property": "C426",
   "status": "partial",
   "theorems": [
    "C426_on_the_boundary_partial",
    "C426_distinct_points_refuted"
   ],
   "note": "Refuted by code: each corner occurs twice, for all counts from two on, so that four boundary segments have length zero; the points do lie on the boundary."
  },
  {
   "property": "C427",
   "status": "partial",
   "theorems": [
    "C427_inner_grid_partial",
    "C427_one_point_refuted"
   ],
   "note": "Refuted by code: the corner points of the inner rectangle are handed over as the two intervals; on every square domain with equal intervals all inner points coincide; the grid is right only if the lower end in v happens to be the upper end in u."
  },
  {
   "property": "C428",
   "status": "partial",
   "theorems": [
    "C428_open_loops_partial",
    "C428_indices_exist",
    "C428_closed_loops_refuted"
   ],
   "note": "Refuted by code: a repeated end point is dropped when numbering but stays in the vertices, so that all segments of the following loops are shifted by one; for loops without a repeated end point the statement holds; the indices always exist."
  },
  {
   "property": "C429",
   "status": "proved",
   "theorems": [
    "C429_hole_point"
   ],
   "note": ""
  },
  {
   "property": "C430",
   "status": "proved",
   "theorems": [
    "C430_names_round_trip",
    "C430_names_forward",
    "C430_unknown_name"
   ],
   "note": ""
  },
  {
   "property": "C431",
   "status": "proved",
   "theorems": [
    "C431_voronoi"
   ],
   "note": ""
  },
  {
   "property": "C432",
   "status": "proved",
   "theorems": [
    "C432_edge_cases"
   ],
   "note": ""
  },
  {
   "property": "C433",
   "status": "partial",
   "theorems": [
    "C433_converged_partial",
    "C433_first_small_step_partial",
    "C433_constraint_value_refuted"
   ],
   "note": "Refuted by code: only the gradient and the Hessian of the constraint are used, never its value, so that constraints differing by a constant have the same result; the point after the first small step is returned as stated (the step uses the inverse Hessian of f alone)."
  },
  {
   "property": "C434",
   "status": "partial",
   "theorems": [
    "C434_linear_constraint_refuted",
    "C434_iteration_limit_refuted"
   ],
   "note": "Refuted by code: with a singular Hessian of the constraint, hence for every linear constraint, the starting point is returned (or a NameError is raised, unless warnings are off and the short result is asked for); at the iteration limit the last point is returned."
  },
  {
   "property": "C435",
   "status": "proved",
   "theorems": [
    "C435_float_colour",
    "C435_round_trip"
   ],
   "note": ""
  },
  {
   "property": "C436",
   "status": "partial",
   "theorems": [
    "C436_int_components_partial",
    "C436_float_components_refuted"
   ],
   "note": "Refuted by code: every sequence with a float whose length is not three is a ValueError; sequences of integers behave as stated."
  },
  {
   "property": "C437",
   "status": "partial",
   "theorems": [
    "C437_hex_round_trip_partial",
    "C437_large_components_refuted"
   ],
   "note": "Refuted by code for every colour with a component from 256 on, which the constructor accepts; for components below 256 both statements hold."
  },
  {
   "property": "C438",
   "status": "proved",
   "theorems": [
    "C438_segments",
    "C438_cover"
   ],
   "note": ""
  },
  {
   "property": "C439",
   "status": "partial",
   "theorems": [
    "C439_shape",
    "C439_too_few_knots_refuted"
   ],
   "note": "Refuted by code: whenever both directions have at most degree many knots, two negative numbers are returned for a positive number of control points; the rest holds."
  },
  {
   "property": "C440",
   "status": "proved",
   "theorems": [
    "C440_implicit_curve"
   ],
   "note": ""
  },
  {
   "property": "C441",
   "status": "proved",
   "theorems": [
    "C441_march_implicit",
    "C441_points_on_curve"
   ],
   "note": ""
  },
  {
   "property": "C442",
   "status": "partial",
   "theorems": [
    "C442_point_limit_refuted",
    "C441_march_implicit"
   ],
   "note": "Refuted by code: the end point is appended after the loop, so a march that never comes near the end returns max(max_points, 2) + 1 points. C441_march_implicit proves that bound as the true limit."
  },
  {
   "property": "C443",
   "status": "proved",
   "theorems": [
    "C443_march_intersection",
    "C443_stops"
   ],
   "note": ""
  },
  {
   "property": "C444",
   "status": "proved",
   "theorems": [
    "C444_raster"
   ],
   "note": ""
  },
  {
   "property": "C445",
   "status": "partial",
   "theorems": [
    "C445_default_gradient_refuted",
    "C445_not_general_refuted",
    "C444_raster"
   ],
   "note": "Refuted by code: the default gradient calls the function with three coordinates, and general_implicit=False multiplies the gradient function with a number. C444_raster covers the remaining case."
  },
  {
   "property": "C446",
   "status": "partial",
   "theorems": [
    "C446_plane_test",
    "C446_finds_plane_refuted"
   ],
   "note": "Refuted by code: the plane goes through the mean of the first points, so the test fails as soon as two of them differ along the normal. C446_plane_test gives the exact condition under which it succeeds."
  },
  {
   "property": "C447",
   "status": "partial",
   "theorems": [
    "C447_found_plane",
    "C447_zero_solution_refuted"
   ],
   "note": "Refuted by code: zero is always an optimal solution of the linear program with the default bounds of linprog, and with it no plane is found. C447_found_plane proves the second half, soundness. Which optimal solution linprog returns is not modelled."
  },
  {
   "property": "C448",
   "status": "proved",
   "theorems": [
    "C448_spatial_separability",
    "C448_are_separable"
   ],
   "note": ""
  },
  {
   "property": "C449",
   "status": "proved",
   "theorems": [
    "C449_separable_hulls",
    "C449_sound"
   ],
   "note": ""
  },
  {
   "property": "C450",
   "status": "partial",
   "theorems": [
    "C450_repeated_vertex_refuted",
    "C450_single_point_refuted",
    "C450_self_partial"
   ],
   "note": "Refuted by code: a repeated vertex, or a hull with a single point, gives a side of length zero whose unit vector is not a number, and then every pair is called separable. C450_self_partial proves it for a hull without repeated vertices and itself."
  },
  {
   "property": "C451",
   "status": "partial",
   "theorems": [
    "C451_circles_test_refuted"
   ],
   "note": "Refuted by code: zero is always a solution of the linear program and the test answers True only if the solver fails, so it always answers False and spherical_separability is the wedge test alone."
  },
  {
   "property": "C452",
   "status": "partial",
   "theorems": [
    "C452_largest_gap",
    "C452_wedge_contains_refuted"
   ],
   "note": "Refuted by code: the angles around the largest gap are returned in the order of the gap, so if the largest gap is not around the back, no point is between start and end. C452_largest_gap proves which two angles are returned."
  },
  {
   "property": "C453",
   "status": "partial",
   "theorems": [
    "C453_wedges_apart_refuted",
    "C453_plain_wedges_partial"
   ],
   "note": "Refuted by code: a point in the wedge around the back of two others is called apart from them. C453_plain_wedges_partial proves it when both largest gaps are around the back."
  },
  {
   "property": "C454",
   "status": "proved",
   "theorems": [
    "C454_center_projection",
    "C454_stereographic_injective"
   ],
   "note": ""
  },
  {
   "property": "C455",
   "status": "proved",
   "theorems": [
    "C455_projection"
   ],
   "note": ""
  },
  {
   "property": "C456",
   "status": "proved",
   "theorems": [
    "C456_newton_steps",
    "C456_linear_system"
   ],
   "note": ""
  },
  {
   "property": "C457",
   "status": "proved",
   "theorems": [
    "C457_quadratic_program",
    "C457_system"
   ],
   "note": ""
  },
  {
   "property": "C458",
   "status": "proved",
   "theorems": [
    "C458_vertices_round_trip"
   ],
   "note": ""
  },
  {
   "property": "C459",
   "status": "proved",
   "theorems": [
    "C459_triangles_round_trip"
   ],
   "note": ""
  },
  {
   "property": "C460",
   "status": "proved",
   "theorems": [
    "C460_segments_round_trip",
    "C460_holes_round_trip",
    "C460_poly_file"
   ],
   "note": ""
  },
  {
   "property": "C461",
   "status": "partial",
   "theorems": [
    "C461_edge_file_refuted",
    "C461_voronoi_file_partial"
   ],
   "note": "Refuted by code: a file without rays is always an error, because columns are taken of an empty one-dimensional array. Proved: with at least one edge and one ray all is read as written."
  },
  {
   "property": "C462",
   "status": "partial",
   "theorems": [
    "C462_no_neighbour_refuted",
    "C462_neighbours_round_trip_partial"
   ],
   "note": "Refuted by code: in files counted from one a missing neighbour becomes -2. Proved: files counted from zero are read as written."
  },
  {
   "property": "C463",
   "status": "partial",
   "theorems": [
    "C463_areas_round_trip",
    "C463_regions_partial",
    "C463_regions_refuted"
   ],
   "note": "Refuted by code for regions with both numbers: the attribute is put in the place of the area, the attribute is zero and the area is lost. Proved: areas, and regions with one number, which becomes the area."
  }
 ]
}