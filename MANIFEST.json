{
 "claims": [
  {
   "property": "C01",
   "status": "proved",
   "theorems": [
    "C01_add",
    "C01_subtract",
    "C01_multiply",
    "C01_negate",
    "C01_add_multiply",
    "C01_subtract_multiply",
    "C01_determinant",
    "C01_expressions"
   ],
   "note": ""
  },
  {
   "property": "C02",
   "status": "proved",
   "theorems": [
    "C02_compare",
    "C02_operators",
    "C02_less_than_flip",
    "C02_int_overloads",
    "C02_signs",
    "C02_sign_pairs",
    "C02_half_words"
   ],
   "note": ""
  },
  {
   "property": "C03",
   "status": "partial",
   "theorems": [
    "C03_every_integer_represented",
    "C03_results_canonical",
    "C03_equality_is_value_equality",
    "C03_abs",
    "C03_abs_int64_min_refuted"
   ],
   "note": "abs() of INT64_MIN is undefined behaviour in the code (llabs), see C03_abs_int64_min_refuted; in-place ++/-- are covered by C07."
  },
  {
   "property": "C04",
   "status": "proved",
   "theorems": [
    "C04_shift_left"
   ],
   "note": ""
  },
  {
   "property": "C05",
   "status": "partial",
   "theorems": [
    "C05_divide_remainder",
    "C05_divide_remainder_identity",
    "C05_int64_min_by_minus_one_refuted",
    "C05_debug_assertion_refuted",
    "C05_remainder_into_divisor_refuted"
   ],
   "note": "Proved for release builds on every pair with a non-zero divisor except INT64_MIN / -1 (undefined behaviour, refuted); debug builds can fail an assertion (refuted); passing the divisor as remainder_out gives a wrong quotient (refuted)."
  },
  {
   "property": "C06",
   "status": "proved",
   "theorems": [
    "C06_print",
    "C06_print_injective"
   ],
   "note": "Assertions off (release build)."
  },
  {
   "property": "C07",
   "status": "partial",
   "theorems": [
    "C07_add_assign",
    "C07_subtract_assign",
    "C07_add_assign_int",
    "C07_subtract_assign_int",
    "C07_increment",
    "C07_decrement",
    "C07_add_self",
    "C07_subtract_self",
    "C07_increment_overflow_refuted",
    "C07_self_operand_refuted",
    "C07_not_canonical_refuted"
   ],
   "note": "Exact outside the failing classes, which are characterised completely: ++ overflow, non-canonical ++/-- at word boundaries, and same-object += / -= beyond 32 bits."
  },
  {
   "property": "C08",
   "status": "partial",
   "theorems": [
    "C08_gcd",
    "C08_gcd_nonneg",
    "C08_gcd_negative",
    "C08_gcd_both_negative_refuted"
   ],
   "note": "Proved unless both operands are negative; then the only other outcome is undefined behaviour, which is reachable (refuted)."
  },
  {
   "property": "C09",
   "status": "proved",
   "theorems": [
    "C09_extremes"
   ],
   "note": ""
  },
  {
   "property": "C10",
   "status": "proved",
   "theorems": [
    "C10_add_sub",
    "C10_multiply",
    "C10_shift_right",
    "C10_bit_scans"
   ],
   "note": ""
  },
  {
   "property": "C11",
   "status": "partial",
   "theorems": [
    "C11_less_than",
    "C11_equals",
    "C11_round_up",
    "C11_round_down",
    "C11_round_overflow_refuted"
   ],
   "note": "Rounding is proved except when num * new_denom is -2^63 and the old denominator is -1, where the division is undefined behaviour (refuted)."
  },
  {
   "property": "C12",
   "status": "proved",
   "theorems": [
    "C12_half_rotation",
    "C12_normalized_exists",
    "C12_half_rotation_strict_weak_order",
    "C12_half_rotation_scale_independent",
    "C12_full_rotation"
   ],
   "note": ""
  },
  {
   "property": "C13",
   "status": "partial",
   "theorems": [
    "C13_same_dir_3d",
    "C13_same_dir_2d",
    "C13_same_dir_returns",
    "C13_same_or_opposite_dir_3d",
    "C13_same_or_opposite_dir_2d",
    "C13_same_direction_meaning",
    "C13_int64_min_refuted"
   ],
   "note": "abs() of a component equal to INT64_MIN is undefined behaviour (refuted); otherwise proved."
  },
  {
   "property": "C14",
   "status": "partial",
   "theorems": [
    "C14_equality",
    "C14_equality_point3",
    "C14_equality_2d",
    "C14_compare_component",
    "C14_less_component",
    "C14_equivalent_component",
    "C14_lexicographic_order",
    "C14_topness_order",
    "C14_reduce",
    "C14_reduce_returns",
    "C14_gcd_of_code",
    "C14_reduce_int64_min_refuted",
    "C14_lexicographic_order_2d_same_sign_partial",
    "C14_lexicographic_order_2d_refuted",
    "C14_denotes_exists_unique"
   ],
   "note": "HomoPoint3 proved; the 2D lexicographic order is reversed for weights of opposite sign (refuted class is complete); Reduce is undefined on INT64_MIN in the characterised class."
  },
  {
   "property": "C15",
   "status": "partial",
   "theorems": [
    "C15_point2_twist",
    "C15_point3_twist",
    "C15_reduced_twist",
    "C15_homo_twist_partial",
    "C15_homo_twist_refuted",
    "C15_homo_twist_zero_refuted"
   ],
   "note": "Point2/Point3 proved; HomoPoint3 is exact when the weights of p1 and p3 have the same sign and inverted otherwise."
  },
  {
   "property": "C16",
   "status": "partial",
   "theorems": [
    "C16_points_side",
    "C16_homo_points_side",
    "C16_points_coincident",
    "C16_homo_points_coincident",
    "C16_points_valid",
    "C16_homo_points_valid",
    "C16_homo_points_returns",
    "C16_middle_weight_int64_min_refuted",
    "C16_normal_and_point",
    "C16_extrude",
    "C16_axis_aligned",
    "C16_project_onto_plane",
    "C16_compare",
    "C16_compare_2d"
   ],
   "note": "Proved except for a middle weight of INT64_MIN, which is undefined behaviour (refuted)."
  },
  {
   "property": "C17",
   "status": "partial",
   "theorems": [
    "C17_equality",
    "C17_equality_returns",
    "C17_same_or_opposite",
    "C17_equality_2d",
    "C17_same_line_2d",
    "C17_set_order_partial",
    "C17_set_order_equivalence_partial",
    "C17_set_order_refuted",
    "C17_set_order_drops_plane_refuted",
    "C17_set_order_not_weak_refuted",
    "C17_sideless_order_partial",
    "C17_sideless_equivalence_partial",
    "C17_sideless_order_refuted",
    "C17_sideless_both_less_refuted",
    "C17_compare_parallel",
    "C17_reduce",
    "C17_reduce_returns"
   ],
   "note": "Equality proved. HalfSpace3Compare is a strict weak order only on planes whose normal components do not sum to 0; HalfSpace2SidelessCompare only for x <> 0 (both failures refuted with their whole class)."
  },
  {
   "property": "C18",
   "status": "proved",
   "theorems": [
    "C18_through_points",
    "C18_through_integer_points",
    "C18_points_valid",
    "C18_shared_by_planes",
    "C18_planes_valid",
    "C18_constructors_well_formed",
    "C18_intersection",
    "C18_no_intersection",
    "C18_line_in_plane",
    "C18_coincident",
    "C18_equality",
    "C18_projection",
    "C18_reduce"
   ],
   "note": ""
  },
  {
   "property": "C19",
   "status": "proved",
   "theorems": [
    "C19_construct",
    "C19_default_empty",
    "C19_inside",
    "C19_inside_point",
    "C19_border",
    "C19_border_point",
    "C19_equal",
    "C19_equal_sets",
    "C19_plane_side",
    "C19_walls_are_faces",
    "C19_walls_bound_box",
    "C19_walls_omitted",
    "C19_diagonal_numerator",
    "C19_diagonal_length_refuted",
    "C19_diagonal_length_integer_box",
    "C19_tracker_built",
    "C19_tracker_returns",
    "C19_tracker_contains",
    "C19_tracker_indices",
    "C19_tracker_rotate",
    "C19_tracker_split",
    "C19_tracker_split_returns"
   ],
   "note": "C19_diagonal_length_refuted is the exception named in the statement. IntersectPlane is C57."
  },
  {
   "property": "C20",
   "status": "partial",
   "theorems": [
    "C20_inside",
    "C20_prune_sound",
    "C20_prune_descendants",
    "C20_prune_tight",
    "C20_inverted_unknown_id_refuted",
    "C20_subtract_unknown_id_refuted",
    "C20_subtract_first_id_refuted"
   ],
   "note": "Sound and tight for every filter expression whose zero-accepting ids have a table entry; an id without an entry is treated as outside although its winding number is 0, and SubtractIdsFilter reads entry 0 instead of its first id (both refuted as classes)."
  },
  {
   "property": "C21",
   "status": "proved",
   "theorems": [
    "C21_transform",
    "C21_reverse_lexicographic",
    "C21_sheared_plane",
    "C21_compare",
    "C21_compare_family",
    "C21_compare_zero",
    "C21_compare_antisymmetric",
    "C21_compare_scale",
    "C21_compare_split_side"
   ],
   "note": ""
  },
  {
   "property": "C22",
   "status": "proved",
   "theorems": [
    "C22_no_history",
    "C22_zero_undefined",
    "C22_exact_at_powers",
    "C22_upper_bound",
    "C22_lower_bound",
    "C22_lower_bound_three_refuted",
    "C22_narrow",
    "C22_split_upper_bound",
    "C22_split_lower_bound",
    "C22_split_accuracy_refuted",
    "C22_split_undefined"
   ],
   "note": "History independence, exactness at powers of two, the upper bound and the documented accuracy are proved; the 0.033 accuracy fails at n = 3 for m >= 32 (outside the documented range), and the 0.018 accuracy documented for GetSplitCost is refuted."
  },
  {
   "property": "C23",
   "status": "partial",
   "theorems": [
    "C23_view",
    "C23_view_unique",
    "C23_iterators",
    "C23_prepend_from_refuted",
    "C23_plus",
    "C23_plus_refuted"
   ],
   "note": "Proved for every history of Append, Prepend and Clear, forwards and backwards. Prepending part of another ConcatRange to a non-empty one is right exactly when as many ranges are added as were present (refuted class), and operator+ never moves inside a range (refuted, characterised completely)."
  },
  {
   "property": "C24",
   "status": "partial",
   "theorems": [
    "C24_build",
    "C24_build_empty",
    "C24_zero_plane",
    "C24_zero_plane_collinear_partial",
    "C24_repeated_first_vertex_refuted",
    "C24_factory",
    "C24_vector_area"
   ],
   "note": "Planarity, conservation, progress, maximality and the boundary theorem are proved; the zero plane means collinear vertices only when the first and last vertices differ (a repeated first vertex always gives the zero plane, refuted class)."
  },
  {
   "property": "C25",
   "status": "proved",
   "theorems": [
    "C25_step",
    "C25_history",
    "C25_no_dangling",
    "C25_lent_use_stops",
    "C25_generic_lend_refuted",
    "C25_null_pointer_refuted"
   ],
   "note": "Proved for every history of the Deed<T> and DeedTarget operations, both builds. Calling GenericDeed::Lend directly leaves the target unaware of the borrower (refuted for every deed that holds a target), and constructing a deed from nullptr is undefined behaviour."
  },
  {
   "property": "C26",
   "status": "proved",
   "theorems": [
    "C26_step",
    "C26_history",
    "C26_access",
    "C26_equality",
    "C26_access_mutable",
    "C26_is_primary",
    "C26_teardown",
    "C26_looking_changes_outcome_refuted",
    "C26_dangling_refuted"
   ],
   "note": "Proved for every history. Two characterised surprises: looking at a handle changes what a later Redirect of a non-primary does (for every three-handle chain), and destroying a handle others point at leaves them dangling (a precondition the class does not state)."
  },
  {
   "property": "C27",
   "status": "partial",
   "theorems": [
    "C27_incident",
    "C27_plane_partial",
    "C27_early_query_refuted",
    "C27_rejected",
    "C27_three_vertices",
    "C27_collinear_refuted",
    "C27_large",
    "C27_array"
   ],
   "note": "Proved for every sequence of calls, with two characterised exceptions: a HasLargePlane query after three vertices freezes the plane, so one or two constrained vertices added later are accepted but not on it; three collinear vertices end in a division by zero."
  },
  {
   "property": "C28",
   "status": "partial",
   "theorems": [
    "C28_on_planes",
    "C28_nearest",
    "C28_parallel_refuted",
    "C28_dependent_refuted",
    "C28_shared"
   ],
   "note": "Finalize puts the vertex on every recorded plane, at the nearest common point when the normals are independent, and equal vertices share one record, all proved. Two parallel planes end in a division by zero and three dependent ones in a point of weight 0 (both refuted as classes)."
  },
  {
   "property": "C29",
   "status": "proved",
   "theorems": [
    "C29_top",
    "C29_farthest",
    "C29_empty"
   ],
   "note": ""
  },
  {
   "property": "C30",
   "status": "proved",
   "theorems": [
    "C30_formula",
    "C30_centroid",
    "C30_returns",
    "C30_negative_weights_refuted"
   ],
   "note": "C30_negative_weights_refuted is the exception named in the statement."
  },
  {
   "property": "C31",
   "status": "proved",
   "theorems": [
    "C31_extreme_2d",
    "C31_extreme_3d",
    "C31_extreme_normal",
    "C31_any_drop"
   ],
   "note": "Proved for all convex polygons and directions, including the tie rule (the first of equally far vertices) and the result for a direction normal to the polygon."
  },
  {
   "property": "C32",
   "status": "proved",
   "theorems": [
    "C32_split_info",
    "C32_no_negative",
    "C32_no_positive"
   ],
   "note": ""
  },
  {
   "property": "C33",
   "status": "proved",
   "theorems": [
    "C33_children"
   ],
   "note": "Proved as equality of point sets; the EdgeParent of the children is not part of the statement."
  },
  {
   "property": "C34",
   "status": "proved",
   "theorems": [
    "C34_merged",
    "C34_refused",
    "C34_returns"
   ],
   "note": ""
  },
  {
   "property": "C35",
   "status": "proved",
   "theorems": [
    "C35_area",
    "C35_centroid",
    "C35_area_returns",
    "C35_centroid_returns",
    "C35_area_sign",
    "C35_centroid_inside",
    "C35_negative_weights_refuted"
   ],
   "note": "C35_negative_weights_refuted is the exception named in the statement."
  },
  {
   "property": "C36",
   "status": "proved",
   "theorems": [
    "C36_count",
    "C36_corners",
    "C36_boundary",
    "C36_area",
    "C36_tiling_point3",
    "C36_tiling_homo3"
   ],
   "note": ""
  },
  {
   "property": "C37",
   "status": "proved",
   "theorems": [
    "C37_partition",
    "C37_partition_boxed",
    "C37_leaves",
    "C37_border"
   ],
   "note": "Proved for every history. nth_element, hashing and exceptions play no part; the bounding box outcome is C19."
  },
  {
   "property": "C38",
   "status": "proved",
   "theorems": [
    "C38_known",
    "C38_room",
    "C38_new_id_refuted"
   ],
   "note": "C38_new_id_refuted is the exception named in the statement: AddContent with a new id after a split is undefined behaviour in both builds."
  },
  {
   "property": "C39",
   "status": "proved",
   "theorems": [
    "C39_peel",
    "C39_tour",
    "C39_parity",
    "C39_single",
    "C39_odd_refuted"
   ],
   "note": "Proved for every tree history. C39_odd_refuted is the exception named in the statement. Whether the winding numbers of the leaf are those of the input meshes is not part of it."
  },
  {
   "property": "C40",
   "status": "proved",
   "theorems": [
    "C40_make_event_points",
    "C40_make_event_points_ends",
    "C40_lowest_cost",
    "C40_split"
   ],
   "note": "Proved for every choice pop_heap may make. GetLowestCost is proved for fewer than 2^57 polygons (2^31 without __int128), where the cost cannot overflow."
  },
  {
   "property": "C41",
   "status": "partial",
   "theorems": [
    "C41_merged",
    "C41_primary_merger",
    "C41_exporter_merger_refuted",
    "C41_exporter_ring_refuted"
   ],
   "note": "Proved for every merger that unites classes; the merger the VTK exporter passes, a.Redirect(b), does not unite them when a is not primary (refuted for every such call, and with a complete ring of four representations)."
  },
  {
   "property": "C42",
   "status": "partial",
   "theorems": [
    "C42_planar_partial",
    "C42_five_refuted"
   ],
   "note": "Proved for every output polygon of at most four vertices; a pentagon with one vertex already fixed by three other facets can come out non-planar (refuted)."
  },
  {
   "property": "C43",
   "status": "proved",
   "theorems": [
    "C43_flat_unmoved"
   ],
   "note": ""
  },
  {
   "property": "C44",
   "status": "proved",
   "theorems": [
    "C44_small_kept"
   ],
   "note": ""
  },
  {
   "property": "C45",
   "status": "partial",
   "theorems": [
    "C45_boundary_partial",
    "C45_reversed_refuted"
   ],
   "note": "Proved for facets of at most four vertices and for facets that stay whole; when two or more vertices are taken from the end of a facet they are output in reverse order (refuted)."
  },
  {
   "property": "C46",
   "status": "proved",
   "theorems": [
    "C46_returns"
   ],
   "note": ""
  },
  {
   "property": "C47",
   "status": "partial",
   "theorems": [
    "C47_from_array",
    "C47_from_vector",
    "C47_from_points",
    "C47_accepts",
    "C47_sound_partial",
    "C47_star_refuted",
    "C47_flat_refuted",
    "C47_repeated_refuted"
   ],
   "note": "Constructors and acceptance of every convex polygon proved; what IsValidState accepts is proved locally convex. Three classes of non-convex polygons are accepted (refuted): ones that wind around more than once, ones that lie on a line, and repeated vertices with an arbitrary line."
  },
  {
   "property": "C48",
   "status": "proved",
   "theorems": [
    "C48_split_edge",
    "C48_merge_edge",
    "C48_merge_edge_returns"
   ],
   "note": ""
  },
  {
   "property": "C49",
   "status": "partial",
   "theorems": [
    "C49_equality",
    "C49_returns",
    "C49_first_data_ignored_refuted",
    "C49_symmetry_refuted"
   ],
   "note": "Proved with the exception that the data of the first edge of the left operand are never compared (refuted for every polygon), so that == is not symmetric (refuted)."
  },
  {
   "property": "C50",
   "status": "partial",
   "theorems": [
    "C50_invert",
    "C50_twice",
    "C50_data_refuted"
   ],
   "note": "Everything but the edge data is proved; the data keep their index instead of following their edge (refuted for every polygon)."
  },
  {
   "property": "C51",
   "status": "proved",
   "theorems": [
    "C51_rotate",
    "C51_minimum",
    "C51_sort",
    "C51_canonical"
   ],
   "note": ""
  },
  {
   "property": "C52",
   "status": "proved",
   "theorems": [
    "C52_edges",
    "C52_boxes"
   ],
   "note": ""
  },
  {
   "property": "C53",
   "status": "proved",
   "theorems": [
    "C53_leaf",
    "C53_any_node",
    "C53_exclude"
   ],
   "note": ""
  },
  {
   "property": "C54",
   "status": "proved",
   "theorems": [
    "C54_split",
    "C54_fresh",
    "C54_ends"
   ],
   "note": "The bound on the number of splits is for leaves of at most 40 polygons; for more the plane is proved to be allowed if Split() returns."
  },
  {
   "property": "C55",
   "status": "proved",
   "theorems": [
    "C55_walk",
    "C55_ends",
    "C55_shown",
    "C55_boundary",
    "C55_touching_refuted"
   ],
   "note": "C55_touching_refuted is the exception named in the statement. That the tables of the nodes hold the winding numbers of the input meshes is a hypothesis (it can only hold for closed meshes), shown to be met by a tetrahedron."
  },
  {
   "property": "C56",
   "status": "proved",
   "theorems": [
    "C56_collect",
    "C56_created_refuted"
   ],
   "note": "C56_created_refuted is the exception named in the statement: the pointer to the plane that created an edge is left to a local variable of PlanePartitioner::Run."
  },
  {
   "property": "C57",
   "status": "proved",
   "theorems": [
    "C57_intersect",
    "C57_thick_box",
    "C57_exclusive",
    "C57_invalid",
    "C57_flat_box_refuted"
   ],
   "note": "C57_flat_box_refuted is the exception named in the statement."
  },
  {
   "property": "C58",
   "status": "partial",
   "theorems": [
    "C58_point3",
    "C58_homo3",
    "C58_build",
    "C58_build_empty",
    "C58_progress",
    "C58_loop",
    "C58_stuck_refuted"
   ],
   "note": "Everything but \"every call makes the remaining range shorter\" is proved. C58_progress says exactly when a call makes progress; C58_stuck_refuted shows that otherwise ConvexPolygonFactory::Build never returns, C58_arrow_stuck is a simple quadrilateral."
  },
  {
   "property": "C59",
   "status": "partial",
   "theorems": [
    "C59_boundary_point3",
    "C59_boundary_homo3",
    "C59_convex_point3_partial",
    "C59_convex_homo3_partial",
    "C59_crossing_point3_partial",
    "C59_crossing_homo3_partial",
    "C59_small",
    "C59_overflow_refuted",
    "C59_duplicate_refuted",
    "C59_touching_refuted"
   ],
   "note": "The boundary is proved for every input. Convexity is proved for chains that do not cross (or cross, but without vertical edges) if all vertices are distinct and, on vertical lines, the chains do not turn back or pass each other. C59_duplicate_refuted, C59_touching_refuted and C59_overflow_refuted show what happens without these hypotheses."
  },
  {
   "property": "C60",
   "status": "partial",
   "theorems": [
    "C60_boundary_point3",
    "C60_boundary_homo3",
    "C60_convex_point3_partial",
    "C60_convex_homo3_partial",
    "C60_crossing_point3_partial",
    "C60_crossing_homo3_partial",
    "C60_flat_point3",
    "C60_flat_homo3",
    "C60_repeated_min",
    "C60_constant",
    "C60_upright_refuted",
    "C60_notch_refuted",
    "C60_max_refuted",
    "C60_vertical_refuted",
    "C60_end_refuted",
    "C60_overlap_refuted"
   ],
   "note": "The boundary is proved for every input, flatness for points on one line. Convexity and orientation are proved under the hypotheses of C59 if the first edges of the chains are apart, or on one line that divides the chains, or vertical and the second chain has the first vertex to the right (told). C60_upright_refuted proves that in the remaining vertical case the chains are always confused; C60_notch_refuted, C60_max_refuted, C60_vertical_refuted, C60_end_refuted and C60_overlap_refuted are concrete failures."
  },
  {
   "property": "C61",
   "status": "partial",
   "theorems": [
    "C61_emit",
    "C61_planar_partial",
    "C61_build_partial",
    "C61_area",
    "C61_facing_refuted",
    "C61_endless_refuted",
    "C61_assert_refuted"
   ],
   "note": "Proved for polygons no two vertices of which have the same x or the same y coordinate, and coordinates below 2^30 in absolute value: valid convex polygons with the boundary of the input, or a monotone range without progress on which Build never returns. C61_facing_refuted: a counterclockwise dart gives a clockwise part. C61_endless_refuted: Build never returns for another dart. C61_assert_refuted: with equal coordinates, an emitted polygon is not convex and the assertion of the constructor fails. Missing: a condition for polygons with equal coordinates."
  },
  {
   "property": "C62",
   "status": "partial",
   "theorems": [
    "C62_closed",
    "C62_open_refuted",
    "C62_silent_refuted"
   ],
   "note": "C62_closed is the whole statement for closed surfaces: any line, any number of half-edges, any polygon normals, any order of the heap, debug and release. C62_case runs it on a case in which a connected pair is separated and joined again. For open polyhedra the statement is false: C62_open_refuted (an edge that outlives its partner is split twice at the same point: failing assertion, or a part of length zero), C62_silent_refuted (no error although two connected half-edges are not neighbours)."
  },
  {
   "property": "C63",
   "status": "proved",
   "theorems": [
    "C63_order",
    "C63_unsorted"
   ],
   "note": "C63_order: the comparison is total and a strict weak order on the edges of a plane and empty deeds. C63_unsorted: any result of a correct sort, any number of lines; the edges of each line are exactly those on the geometric line of the first one, and each line is done as in C62. C63_case meets all hypotheses: an empty deed and two pairs of edges on parallel lines."
  },
  {
   "property": "C64",
   "status": "proved",
   "theorems": [
    "C64_merge",
    "C64_merge_all",
    "C64_around",
    "C64_open_refuted",
    "C64_open_unequal_refuted"
   ],
   "note": "C64_merge, C64_merge_all and C64_around for all consistent meshes without uneven open edges, which every closed mesh is; the exceptions that the property names are C64_open_refuted (null dereference) and C64_open_unequal_refuted (partners with different end points). Components equal to -2^63 are excluded. The IsValidState assertions of the visitor are not modelled."
  },
  {
   "property": "C65",
   "status": "proved",
   "theorems": [
    "C65_apply_primary"
   ],
   "note": "C65_apply_primary. The polygons are of any type: that a polygon crossing the plane is split into parts that reach to the plane (C18, C19), and that marking a polygon does not move its vertices, are hypotheses. With assertions, plane components equal to -2^63 are excluded."
  },
  {
   "property": "C66",
   "status": "proved",
   "theorems": [
    "C66_apply_secondary",
    "C66_apply_secondary_ends",
    "C66_after_primary",
    "C66_assertion_refuted",
    "C66_flat_refuted",
    "C66_next_split_refuted"
   ],
   "note": "C66_apply_secondary, C66_apply_secondary_ends for polygons that are not flat in the dimension; C66_after_primary: the result of ApplyPrimary (C65) meets the hypotheses. The exceptions that the property names are C66_assertion_refuted (assertion fails with a polygon in the split plane), C66_flat_refuted and C66_next_split_refuted (flat polygons). The extents of the two parts of a divided polygon are a hypothesis (parts); std::push_heap and pop_heap are known by their contract."
  },
  {
   "property": "C67",
   "status": "proved",
   "theorems": [
    "C67_split",
    "C67_other_dimension"
   ],
   "note": "C67_split compares the two ways to split for a leaf of a tree (node_ok), C67_other_dimension adds ApplySecondary. That Split(half_space) returns is a hypothesis: with bounding boxes its only other outcome is undefined behaviour when a box is computed (C37). With assertions, plane components equal to -2^63 are excluded."
  },
  {
   "property": "C68",
   "status": "proved",
   "theorems": [
    "C68_split",
    "C68_runs",
    "C68_run",
    "C68_bound_refuted",
    "C68_flat_refuted"
   ],
   "note": "C68_split and C68_runs for one split, C68_run for whole traversals. That polygons in the k-d case are not perpendicular to an axis is a hypothesis, as the statement says. C68_flat_refuted and C68_bound_refuted are the exceptions named in the statement."
  },
  {
   "property": "C69",
   "status": "proved",
   "theorems": [
    "C69_groups",
    "C69_polygons",
    "C69_depths",
    "C69_created_refuted"
   ],
   "note": "C69_groups, C69_polygons, C69_depths. What is done with a group when a node is left, connecting (C62, C63) and merging (C64), is not part of this model; an edge is named by its polygon and number when it was accepted. C69_created_refuted is the exception named in the statement."
  },
  {
   "property": "C70",
   "status": "proved",
   "theorems": [
    "C70_border",
    "C70_border_boxed",
    "C70_missed"
   ],
   "note": "C70_border without bounding boxes; C70_border_boxed with them, where computing a bounding box may have undefined behaviour (C05); C70_missed for a plane that does not cross the box. The result is modelled with the polygons of the tree instead of MutableConvexPolygon copies of them. What happens to a missed plane without assertions is not claimed."
  },
  {
   "property": "C71",
   "status": "partial",
   "theorems": [
    "C71_moved",
    "C71_watertight",
    "C71_faces",
    "C71_int_partial"
   ],
   "note": "C71_faces and C71_watertight for homogeneous points and any factory that keeps the boundary of each face; C71_moved for the offset; C71_int_partial for integer points and the modelled factory. Missing in the last one: faces with equal x or y coordinates, as in C61, so also extrusions along an axis."
  },
  {
   "property": "C72",
   "status": "proved",
   "theorems": [
    "C72_filter",
    "C72_valid",
    "C72_detects",
    "C72_leave"
   ],
   "note": "C72_filter, C72_valid, C72_detects, C72_leave. Moving a polygon is modelled as moving its vector of edges as a whole, as std::vector does."
  },
  {
   "property": "C73",
   "status": "proved",
   "theorems": [
    "C73_split",
    "C73_link",
    "C73_line",
    "C73_group",
    "C73_closed"
   ],
   "note": "C73_split and C73_link for one step, C73_line for one line (the run of C62 is a run of such steps), C73_group for some lines of a mesh that is connected elsewhere, C73_closed for all lines of a mesh. That edges on a line are part of a closed surface (closed_line) is a hypothesis on the input, as in C62; how the lines are found is C63. The numbers of new edges stand for their addresses."
  },
  {
   "property": "C74",
   "status": "partial",
   "theorems": [
    "C74_finished_partial",
    "C74_node"
   ],
   "note": "C74_finished_partial combines C73, C64 and C72. C74_node is one node as in the code: its edges are connected and the polygons merged along them while other edges may have no partner yet. Missing: the induction over the nodes with interleaved steps; C74_finished_partial connects all edges first. That the lines are closed is a hypothesis on the polygons (C53 is about the border that a traversal shows)."
  },
  {
   "property": "C75",
   "status": "proved",
   "theorems": [
    "C75_decompose",
    "C75_exact",
    "C75_rounded",
    "C75_integers",
    "C75_grain_refuted"
   ],
   "note": "C75_exact for all finite doubles; C75_rounded for min_exponent <= 0. For a positive min_exponent the coordinates are rounded to integers (C75_integers), so that the documented grain size is not kept (C75_grain_refuted, for every positive min_exponent)."
  },
  {
   "property": "C76",
   "status": "proved",
   "theorems": [
    "C76_built",
    "C76_built_returns",
    "C76_contains",
    "C76_valid",
    "C76_rotate",
    "C76_sort",
    "C76_sort_empty_refuted",
    "C76_merged",
    "C76_refused",
    "C76_equal_sound",
    "C76_equal_exact",
    "C76_exact",
    "C76_equal_refuted",
    "C76_split_edge",
    "C76_split_edge_refuted",
    "C76_merge_edge_refuted"
   ],
   "note": "Boxes are right after construction, rotation, sorting and merging. Equality with boxes is weaker than without for different denominators (C76_equal_refuted); the same up to sign of the weights: C76_equal_exact with C76_exact. Sorting a polygon without vertices is undefined (C76_sort_empty_refuted). SplitEdge and TryMergeEdge are not overridden and leave wrong extreme vertices (C76_split_edge_refuted, C76_merge_edge_refuted). Building a box may have undefined 64 bit operations (C76_built_returns says when it has none)."
  }
 ]
}