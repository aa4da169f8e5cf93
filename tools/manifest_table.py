NOTE['C03'] = 'abs() of INT64_MIN is undefined behaviour in the code (llabs), see C03_abs_int64_min_refuted; in-place ++/-- are covered by C07.'
NOTE['C05'] = 'Proved for release builds on every pair with a non-zero divisor except INT64_MIN / -1 (undefined behaviour, refuted); debug builds can fail an assertion (refuted); passing the divisor as remainder_out gives a wrong quotient (refuted).'
NOTE["C06"] = "Assertions off (release build)."
NOTE['C08'] = 'Proved unless both operands are negative; then the only other outcome is undefined behaviour, which is reachable (refuted).'
NOTE['C07'] = 'Exact outside the failing classes, which are characterised completely: ++ overflow, non-canonical ++/-- at word boundaries, and same-object += / -= beyond 32 bits.'
NOTE['C11'] = 'Rounding is proved except when num * new_denom is -2^63 and the old denominator is -1, where the division is undefined behaviour (refuted).'
NOTE['C13'] = 'abs() of a component equal to INT64_MIN is undefined behaviour (refuted); otherwise proved.'
NOTE['C14'] = 'HomoPoint3 proved; the 2D lexicographic order is reversed for weights of opposite sign (refuted class is complete); Reduce is undefined on INT64_MIN in the characterised class.'
NOTE['C15'] = 'Point2/Point3 proved; HomoPoint3 is exact when the weights of p1 and p3 have the same sign and inverted otherwise.'
NOTE['C16'] = 'Proved except for a middle weight of INT64_MIN, which is undefined behaviour (refuted).'
NOTE['C17'] = 'Equality proved. HalfSpace3Compare is a strict weak order only on planes whose normal components do not sum to 0; HalfSpace2SidelessCompare only for x <> 0 (both failures refuted with their whole class).'
NOTE['C19'] = 'C19_diagonal_length_refuted is the exception named in the statement. IntersectPlane is C57.'
STATUS['C19'] = 'proved'
NOTE['C20'] = 'Sound and tight for every filter expression whose zero-accepting ids have a table entry; an id without an entry is treated as outside although its winding number is 0, and SubtractIdsFilter reads entry 0 instead of its first id (both refuted as classes).'
NOTE['C22'] = 'History independence, exactness at powers of two, the upper bound and the documented accuracy are proved; the 0.033 accuracy fails at n = 3 for m >= 32 (outside the documented range), and the 0.018 accuracy documented for GetSplitCost is refuted.'
STATUS['C22'] = 'proved'
NOTE['C23'] = 'Proved for every history of Append, Prepend and Clear, forwards and backwards. Prepending part of another ConcatRange to a non-empty one is right exactly when as many ranges are added as were present (refuted class), and operator+ never moves inside a range (refuted, characterised completely).'
NOTE['C24'] = 'Planarity, conservation, progress, maximality and the boundary theorem are proved; the zero plane means collinear vertices only when the first and last vertices differ (a repeated first vertex always gives the zero plane, refuted class).'
NOTE['C25'] = 'Proved for every history of the Deed<T> and DeedTarget operations, both builds. Calling GenericDeed::Lend directly leaves the target unaware of the borrower (refuted for every deed that holds a target), and constructing a deed from nullptr is undefined behaviour.'
STATUS['C25'] = 'proved'
NOTE['C26'] = 'Proved for every history. Two characterised surprises: looking at a handle changes what a later Redirect of a non-primary does (for every three-handle chain), and destroying a handle others point at leaves them dangling (a precondition the class does not state).'
STATUS['C26'] = 'proved'
NOTE['C41'] = 'Proved for every merger that unites classes; the merger the VTK exporter passes, a.Redirect(b), does not unite them when a is not primary (refuted for every such call, and with a complete ring of four representations).'
NOTE['C27'] = 'Proved for every sequence of calls, with two characterised exceptions: a HasLargePlane query after three vertices freezes the plane, so one or two constrained vertices added later are accepted but not on it; three collinear vertices end in a division by zero.'
NOTE['C28'] = 'Finalize puts the vertex on every recorded plane, at the nearest common point when the normals are independent, and equal vertices share one record, all proved. Two parallel planes end in a division by zero and three dependent ones in a point of weight 0 (both refuted as classes).'
NOTE['C42'] = 'Proved for every output polygon of at most four vertices; a pentagon with one vertex already fixed by three other facets can come out non-planar (refuted).'
NOTE['C45'] = 'Proved for facets of at most four vertices and for facets that stay whole; when two or more vertices are taken from the end of a facet they are output in reverse order (refuted).'
NOTE['C47'] = 'Constructors and acceptance of every convex polygon proved; what IsValidState accepts is proved locally convex. Three classes of non-convex polygons are accepted (refuted): ones that wind around more than once, ones that lie on a line, and repeated vertices with an arbitrary line.'
NOTE['C31'] = 'Proved for all convex polygons and directions, including the tie rule (the first of equally far vertices) and the result for a direction normal to the polygon.'
NOTE['C33'] = 'Proved as equality of point sets; the EdgeParent of the children is not part of the statement.'
STATUS['C35'] = 'proved'
NOTE['C35'] = 'C35_negative_weights_refuted is the exception named in the statement.'
NOTE['C49'] = 'Proved with the exception that the data of the first edge of the left operand are never compared (refuted for every polygon), so that == is not symmetric (refuted).'
NOTE['C50'] = 'Everything but the edge data is proved; the data keep their index instead of following their edge (refuted for every polygon).'
STATUS['C30'] = 'proved'
NOTE['C30'] = 'C30_negative_weights_refuted is the exception named in the statement.'
NOTE['C37'] = 'Proved for every history. nth_element, hashing and exceptions play no part; the bounding box outcome is C19.'
STATUS['C38'] = 'proved'
NOTE['C38'] = 'C38_new_id_refuted is the exception named in the statement: AddContent with a new id after a split is undefined behaviour in both builds.'
NOTE['C54'] = 'The bound on the number of splits is for leaves of at most 40 polygons; for more the plane is proved to be allowed if Split() returns.'
STATUS['C39'] = 'proved'
NOTE['C39'] = 'Proved for every tree history. C39_odd_refuted is the exception named in the statement. Whether the winding numbers of the leaf are those of the input meshes is not part of it.'
STATUS['C55'] = 'proved'
NOTE['C55'] = 'C55_touching_refuted is the exception named in the statement. That the tables of the nodes hold the winding numbers of the input meshes is a hypothesis (it can only hold for closed meshes), shown to be met by a tetrahedron.'
STATUS['C56'] = 'proved'
NOTE['C56'] = 'C56_created_refuted is the exception named in the statement: the pointer to the plane that created an edge is left to a local variable of PlanePartitioner::Run.'

STATUS['C57'] = 'proved'
NOTE['C57'] = 'C57_flat_box_refuted is the exception named in the statement.'
NOTE['C40'] = 'Proved for every choice pop_heap may make. GetLowestCost is proved for fewer than 2^57 polygons (2^31 without __int128), where the cost cannot overflow.'
NOTE['C58'] = 'Everything but "every call makes the remaining range shorter" is proved. C58_progress says exactly when a call makes progress; C58_stuck_refuted shows that otherwise ConvexPolygonFactory::Build never returns, C58_arrow_stuck is a simple quadrilateral.'
NOTE['C59'] = 'The boundary is proved for every input. Convexity is proved for chains that do not cross (or cross, but without vertical edges) if all vertices are distinct and, on vertical lines, the chains do not turn back or pass each other. C59_duplicate_refuted, C59_touching_refuted and C59_overflow_refuted show what happens without these hypotheses.'
NOTE['C60'] = 'The boundary is proved for every input, flatness for points on one line. Convexity and orientation are proved under the hypotheses of C59 if the first edges of the chains are apart, or on one line that divides the chains, or vertical and the second chain has the first vertex to the right (told). C60_upright_refuted proves that in the remaining vertical case the chains are always confused; C60_notch_refuted, C60_max_refuted, C60_vertical_refuted, C60_end_refuted and C60_overlap_refuted are concrete failures.'
NOTE['C61'] = 'Proved for polygons no two vertices of which have the same x or the same y coordinate, and coordinates below 2^30 in absolute value: valid convex polygons with the boundary of the input, or a monotone range without progress on which Build never returns. C61_facing_refuted: a counterclockwise dart gives a clockwise part. C61_endless_refuted: Build never returns for another dart. C61_assert_refuted: with equal coordinates, an emitted polygon is not convex and the assertion of the constructor fails. Missing: a condition for polygons with equal coordinates.'
NOTE['C62'] = 'C62_closed is the whole statement for closed surfaces: any line, any number of half-edges, any polygon normals, any order of the heap, debug and release. C62_case runs it on a case in which a connected pair is separated and joined again. For open polyhedra the statement is false: C62_open_refuted (an edge that outlives its partner is split twice at the same point: failing assertion, or a part of length zero), C62_silent_refuted (no error although two connected half-edges are not neighbours).'
NOTE['C63'] = 'C63_order: the comparison is total and a strict weak order on the edges of a plane and empty deeds. C63_unsorted: any result of a correct sort, any number of lines; the edges of each line are exactly those on the geometric line of the first one, and each line is done as in C62. C63_case meets all hypotheses: an empty deed and two pairs of edges on parallel lines.'
NOTE['C64'] = 'C64_merge, C64_merge_all and C64_around for all consistent meshes without uneven open edges, which every closed mesh is; the exceptions that the property names are C64_open_refuted (null dereference) and C64_open_unequal_refuted (partners with different end points). Components equal to -2^63 are excluded. The IsValidState assertions of the visitor are not modelled.'
STATUS['C64'] = 'proved'
NOTE['C65'] = 'C65_apply_primary. The polygons are of any type: that a polygon crossing the plane is split into parts that reach to the plane (C18, C19), and that marking a polygon does not move its vertices, are hypotheses. With assertions, plane components equal to -2^63 are excluded.'
STATUS['C65'] = 'proved'
NOTE['C66'] = 'C66_apply_secondary, C66_apply_secondary_ends for polygons that are not flat in the dimension; C66_after_primary: the result of ApplyPrimary (C65) meets the hypotheses. The exceptions that the property names are C66_assertion_refuted (assertion fails with a polygon in the split plane), C66_flat_refuted and C66_next_split_refuted (flat polygons). The extents of the two parts of a divided polygon are a hypothesis (parts); std::push_heap and pop_heap are known by their contract.'
STATUS['C66'] = 'proved'
NOTE['C67'] = 'C67_split compares the two ways to split for a leaf of a tree (node_ok), C67_other_dimension adds ApplySecondary. That Split(half_space) returns is a hypothesis: with bounding boxes its only other outcome is undefined behaviour when a box is computed (C37). With assertions, plane components equal to -2^63 are excluded.'
NOTE['C68'] = 'C68_split and C68_runs for one split, C68_run for whole traversals. That polygons in the k-d case are not perpendicular to an axis is a hypothesis, as the statement says. C68_flat_refuted and C68_bound_refuted are the exceptions named in the statement.'
STATUS['C68'] = 'proved'
NOTE['C69'] = 'C69_groups, C69_polygons, C69_depths. What is done with a group when a node is left, connecting (C62, C63) and merging (C64), is not part of this model; an edge is named by its polygon and number when it was accepted. C69_created_refuted is the exception named in the statement.'
STATUS['C69'] = 'proved'
NOTE['C70'] = 'C70_border without bounding boxes; C70_border_boxed with them, where computing a bounding box may have undefined behaviour (C05); C70_missed for a plane that does not cross the box. The result is modelled with the polygons of the tree instead of MutableConvexPolygon copies of them. What happens to a missed plane without assertions is not claimed.'
STATUS['C70'] = 'proved'
NOTE['C71'] = 'C71_faces and C71_watertight for homogeneous points and any factory that keeps the boundary of each face; C71_moved for the offset; C71_int_partial for integer points and the modelled factory. Missing in the last one: faces with equal x or y coordinates, as in C61, so also extrusions along an axis.'
NOTE['C72'] = 'C72_filter, C72_valid, C72_detects, C72_leave. Moving a polygon is modelled as moving its vector of edges as a whole, as std::vector does.'
STATUS['C72'] = 'proved'
NOTE['C73'] = 'C73_split and C73_link for one step, C73_line for one line (the run of C62 is a run of such steps), C73_group for some lines of a mesh that is connected elsewhere, C73_closed for all lines of a mesh. That edges on a line are part of a closed surface (closed_line) is a hypothesis on the input, as in C62; how the lines are found is C63. The numbers of new edges stand for their addresses.'
NOTE['C74'] = 'C74_finished_partial combines C73, C64 and C72. C74_node is one node as in the code: its edges are connected and the polygons merged along them while other edges may have no partner yet. Missing: the induction over the nodes with interleaved steps; C74_finished_partial connects all edges first. That the lines are closed is a hypothesis on the polygons (C53 is about the border that a traversal shows).'
NOTE['C75'] = 'C75_exact for all finite doubles; C75_rounded for min_exponent <= 0. For a positive min_exponent the coordinates are rounded to integers (C75_integers), so that the documented grain size is not kept (C75_grain_refuted, for every positive min_exponent).'
STATUS['C75'] = 'proved'
NOTE['C76'] = 'Boxes are right after construction, rotation, sorting and merging. Equality with boxes is weaker than without for different denominators (C76_equal_refuted); the same up to sign of the weights: C76_equal_exact with C76_exact. Sorting a polygon without vertices is undefined (C76_sort_empty_refuted). SplitEdge and TryMergeEdge are not overridden and leave wrong extreme vertices (C76_split_edge_refuted, C76_merge_edge_refuted). Building a box may have undefined 64 bit operations (C76_built_returns says when it has none).'
STATUS['C76'] = 'proved'
