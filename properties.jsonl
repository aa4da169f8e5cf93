{"id": "C01", "title": "BigInt addition, subtraction, negation and multiplication are exact", "statement": "For BigInt values a and b built by the library, a+b, a-b, -a, a*b, AddMultiply, SubtractMultiply and Determinant return the BigInt whose mathematical value is exactly a+b, a-b, -a, a*b, t+a*b, t-a*b and ad-bc; no operand size makes a carry, borrow or sign extension get lost.", "quantifier": "all integers of any word count, including every combination of operand sizes, signs and carry patterns", "why_tests_cant": "The carry, sign-extension and fast-path cases form an unbounded space; one wrong word at one length/carry pattern silently corrupts all exact geometry.", "anchors": ["include/walnut/big_int.h: BigInt::Add, Subtract, Multiply, Negate, AddMultiply, SubtractMultiply, Determinant", "src/walnut/big_int.cpp: BigInt::MultiplySlow", "include/walnut/big_uint_word.h: Add, Subtract, MultiplyAdd, MultiplySigned"]}
{"id": "C02", "title": "BigInt comparisons agree with the order on the integers", "statement": "For BigInt values a, b and bool flip: a==b, a!=b, a<b, a<=b, a>b, a>=b, a.Compare(b), a.LessThan(flip,b), the int overloads, GetSign, IsZero, IsNegative, GetAbsMult, HasSameSign, HasDifferentSign, IsHalfWord and AllHalfWords all report exactly what the mathematical values say.", "quantifier": "all pairs of integers of any size and sign", "why_tests_cant": "Comparisons mix signed top-word and unsigned lower-word comparisons over arbitrary lengths; every geometric predicate depends on them.", "anchors": ["include/walnut/big_int.h: Compare, operator<, <=, >, >=, ==, !=, LessThan, GetSign, IsZero, GetAbsMult, HasSameSign, AllHalfWords, IsHalfWord"]}
{"id": "C03", "title": "BigInt results are canonical, so equal values are indistinguishable", "statement": "Every BigInt returned by arithmetic holds the unique shortest word sequence for its value; hence two BigInts have equal value iff operator== says so, and equal values have equal GetHash.", "quantifier": "all values and all arithmetic operations producing them", "why_tests_cant": "operator== and GetHash compare words; one untrimmed result anywhere breaks equality and hash lookup for that value only.", "anchors": ["include/walnut/big_int.h: Trim, CanTrim, operator==, GetHash, BigInt(const BigUInt&)"]}
{"id": "C04", "title": "BigInt left shift multiplies by a power of two", "statement": "For every BigInt a and shift s, a << s has value a * 2^s and is canonical.", "quantifier": "all integers and all shift amounts (word-aligned and not)", "why_tests_cant": "Word-aligned, sub-word and single-word fast paths must agree for unboundedly many (value, shift) pairs.", "anchors": ["include/walnut/big_int.h: BigInt::operator<<"]}
{"id": "C05", "title": "BigInt division returns the truncated quotient and remainder", "statement": "For every BigInt a and non-zero b, a/b, a%b and DivideRemainder return q and r with a = q*b + r, |r| < |b|, r zero or with the sign of a, and never execute undefined behaviour or fail an assertion.", "quantifier": "all dividends and non-zero divisors of any size and sign", "why_tests_cant": "The multi-word algorithm estimates quotient digits from a 32 bit approximation of the divisor; the worst cases (estimates off, carries, remainders that shrink by whole words) are measure-zero for random tests.", "anchors": ["include/walnut/big_uint.h: BigUInt::DivideRemainderSlow, AddLeftShifted, SubtractLeftShifted, GetAtBitOffset, ShiftRightWord", "include/walnut/big_int.h: operator/, operator%, DivideRemainder", "src/walnut/big_int.cpp: BigInt::DivideRemainderSlow"]}
{"id": "C06", "title": "Printing a BigInt yields its decimal representation", "statement": "operator<< writes exactly the decimal digits of the value, with a leading '-' iff negative and no leading zeros, and never writes outside its digit buffer.", "quantifier": "all integers of any size", "why_tests_cant": "The buffer bound must hold at every size and every digit must be right; tests can only print a few numbers.", "anchors": ["src/walnut/big_int.cpp: operator<<(std::ostream&, const BigInt&)"]}
{"id": "C07", "title": "In-place BigInt updates equal their out-of-place counterparts", "statement": "a+=b, a-=b, ++a, --a, +=int, -=int leave a canonical with value a+b, a-b, a+1, a-1, a+int, a-int, for every a and b including b being the same object as a.", "quantifier": "all values of a and b, aliased or not", "why_tests_cant": "The failing values (word boundaries such as INT64_MAX) are isolated points in an unbounded domain, and aliasing is a separate dimension.", "anchors": ["include/walnut/big_int.h: operator+=, operator-=, operator++, operator--"]}
{"id": "C08", "title": "GetGreatestCommonDivisor returns a greatest common divisor", "statement": "For all a, b (not both zero) a.GetGreatestCommonDivisor(b) terminates and returns g with |g| = gcd(a,b).", "quantifier": "all pairs of integers", "why_tests_cant": "Termination and correctness are by descent on unbounded values.", "anchors": ["include/walnut/big_int.h: GetGreatestCommonDivisor"]}
{"id": "C09", "title": "max_value and min_value give the extreme values for a bit count", "statement": "BigInt::max_value(n) is 2^n - 1 and BigInt::min_value(n) is -2^n, canonical, for every n.", "quantifier": "all bit counts n", "why_tests_cant": "Word-boundary bit counts are the risky ones and there are infinitely many.", "anchors": ["src/walnut/big_int.cpp: BigInt::max_value, BigInt::min_value"]}
{"id": "C10", "title": "The portable word primitives agree with the 128-bit ones", "statement": "BigUIntWord::Multiply, MultiplySigned, MultiplyAdd, ShiftRight, Add/Subtract with carry and GetHighestSetBit/GetTrailingZeros give the same, mathematically exact, result with and without compiler intrinsics.", "quantifier": "all 64-bit words (2^128 or 2^192 input combinations), carries and shifts", "why_tests_cant": "The input space is astronomically large and only one of the two implementations is compiled on any test machine.", "anchors": ["include/walnut/big_uint_word.h: Add, Subtract, Multiply, MultiplySigned, MultiplyAdd, ShiftRight, GetHighestSetBitUnaccelerated, GetTrailingZerosUnaccelerated"]}
{"id": "C11", "title": "rational comparisons and rounding are exact for every sign of denominator", "statement": "rational::IsLessThan and rational::Equals decide < and = on n1/d1, n2/d2 for all non-zero denominators; RoundDown/RoundUp return the floor/ceiling of numerator*new_denominator/denominator.", "quantifier": "all numerators and non-zero denominators", "why_tests_cant": "Sign handling of both denominators multiplies the cases; wrong rounding by one makes a bounding box exclude a vertex.", "anchors": ["include/walnut/rational.h: IsLessThan, Equals, RoundDown, RoundUp"]}
{"id": "C12", "title": "Half-rotation comparisons order directions by angle", "statement": "rational::IsHalfRotationLessThan and the Vector2 / HalfSpace2 rotation predicates order directions counter-clockwise within each half turn exactly as the angles of the represented vectors do, independent of positive scaling.", "quantifier": "all 2D integer vectors", "why_tests_cant": "The order must be a strict weak order on every triple of vectors for std::sort and std::map to be defined behaviour.", "anchors": ["include/walnut/rational.h: IsHalfRotationLessThan", "include/walnut/vector2.h: Vector2::IsRotationLessThan / IsHalfRotationLessThan", "include/walnut/half_space2.h"]}
{"id": "C13", "title": "Direction and equality tests of vectors are scale independent", "statement": "Vector3::IsSameDir, IsSameOrOppositeDir and Vector2 counterparts hold exactly when one vector is a positive (non-zero) multiple of the other.", "quantifier": "all pairs of 3D/2D integer vectors, including zero components", "why_tests_cant": "Component-wise shortcuts (which component is used for scaling) must be right for every pattern of zero components and signs.", "anchors": ["include/walnut/vector3.h: IsSameDir, IsSameOrOppositeDir", "include/walnut/vector2.h"]}
{"id": "C14", "title": "Homogeneous points compare by the point they represent", "statement": "HomoPoint2/HomoPoint3 ==, CompareComponent, IsEquivalentComponent, LexicographicallyLt and TopnessLt depend only on (x/w, y/w, z/w): equality is equality of the rational points and the orders are the lexicographic orders on them, for every sign of w.", "quantifier": "all homogeneous points with non-zero w", "why_tests_cant": "Each point has infinitely many representations; a sign slip only shows for particular sign combinations of w.", "anchors": ["include/walnut/homo_point3.h: operator==, CompareComponent, LexicographicallyLt, TopnessLt", "include/walnut/homo_point2.h: LexicographicallyLt"]}
{"id": "C15", "title": "Twist direction tests report the orientation of the projected points", "statement": "Point3::Get2DTwistDir and HomoPoint3::Get2DTwistDir return the sign of the turn p1->p2->p3 after dropping a dimension, for all points and all signs of the denominators.", "quantifier": "all triples of points and all dropped dimensions", "why_tests_cant": "Orientation predicates must be exact for every triple; sign combinations of homogeneous weights are easily missed.", "anchors": ["include/walnut/point3.h: Get2DTwistDir", "src/walnut/homo_point3.cpp: HomoPoint3::Get2DTwistDir"]}
{"id": "C16", "title": "A plane through three points contains them and faces the right way", "statement": "HalfSpace3(p1,p2,p3) is coincident with p1, p2 and p3; it is valid iff they are not collinear; a point is on the positive side iff it sees the triangle counter-clockwise; the result for homogeneous points does not depend on the weights' signs or scale.", "quantifier": "all triples of integer or homogeneous points", "why_tests_cant": "Exactness for arbitrary coordinates and weight signs cannot be sampled.", "anchors": ["include/walnut/half_space3.h: HalfSpace3(const Point3&...), HalfSpace3(const HomoPoint3&...), Compare, IsCoincident, IsValid"]}
{"id": "C17", "title": "Half-space equality and ordering identify exactly the same planes", "statement": "HalfSpace3 == holds iff both describe the same half-space (positive scaling), IsSameOrOpposite iff the same plane, and HalfSpace3Compare is a strict weak order whose equivalence is plane equality, as std::set in the BSP tree relies on.", "quantifier": "all pairs (and triples) of planes with non-zero normals", "why_tests_cant": "Strict-weak-order violations need particular coefficient patterns (e.g. coefficients summing to zero).", "anchors": ["include/walnut/half_space3.h: operator==, IsSameOrOpposite, HalfSpace3Compare", "include/walnut/half_space2_sideless_compare.h"]}
{"id": "C18", "title": "Line/plane intersections lie on both and lines contain their defining points", "statement": "PluckerLine(p1,p2) contains p1 and p2; PluckerLine(plane1,plane2) lies in both planes; Intersect(plane) is a point on the line and the plane whenever it has non-zero weight, and the weight is zero iff the line is parallel to the plane.", "quantifier": "all points, lines and planes with integer coefficients", "why_tests_cant": "Algebraic identities over unbounded integers; the library's splitting code builds every new vertex with them.", "anchors": ["include/walnut/plucker_line.h: PluckerLine constructors, IsCoincident, Intersect, operator==, IsOnPlane", "src/walnut/plucker_line.cpp"]}
{"id": "C19", "title": "AABB predicates are exact", "statement": "AABB::IsInside, IsOnBorder, ==, GetPlaneSide and the AABB built from points agree with the box of rational coordinates they denote: the box contains every point it was built from, and GetPlaneSide returns a side only if the whole box is strictly on that side. Exception: GetDiagonalLength takes the root of the squared length of the diagonal over the denominator instead of its square, so it is the length of the diagonal only for denominator 1 (or a box that is a point).", "quantifier": "all boxes, points and planes", "why_tests_cant": "Rounding of homogeneous points to a common denominator must be conservative for every denominator sign.", "anchors": ["include/walnut/aabb.h", "src/walnut/aabb.cpp"]}
{"id": "C20", "title": "Boolean operation filters are sound for early pruning", "statement": "For every filter expression, FilterVisitor content evaluation returns (inside, may_change): inside is the boolean combination of per-id winding tests, and if may_change is false then no change of winding numbers reachable below the node (ids without polygons in the node keep their value) changes inside.", "quantifier": "all filter expressions of any depth, all id counts, all winding numbers and polygon counts", "why_tests_cant": "Pruning a subtree wrongly deletes output facets only for particular id/winding combinations; expression trees are unbounded.", "anchors": ["include/walnut/boolean_operation_filter.h", "include/walnut/bsp_content_info.h"]}
{"id": "C21", "title": "Infinitesimal-rotation comparison equals the comparison for every small enough rotation", "statement": "RXYCompareBivector(u,v) equals the sign of the XY cross product of the normals of the planes after the R transformation, for all sufficiently small epsilon; ties are broken consistently and the relation is antisymmetric.", "quantifier": "all pairs of integer vectors and all epsilon below some bound", "why_tests_cant": "It is a limit statement over infinitely many epsilons; no finite test decides it.", "anchors": ["include/walnut/r_transformation.h: RXYCompareBivector", "src/walnut/r_transformation.cpp"]}
{"id": "C22", "title": "M log N estimates stay within their bounds and do not depend on call history", "statement": "MLogNEstimator::Estimate(m,n) returns the same value whatever calls came before, is exact when n is a power of two, and never exceeds m*log2(n).", "quantifier": "all m, n >= 1 without 64-bit overflow and all call histories", "why_tests_cant": "The cached state makes results potentially history dependent.", "anchors": ["include/walnut/m_log_n_estimator.h", "src/walnut/m_log_n_estimator.cpp"]}
{"id": "C23", "title": "ConcatRange presents exactly the concatenation of its ranges", "statement": "After any sequence of Append, Prepend and Clear calls, iterating begin() to end() yields the concatenation of the ranges in logical order, reverse iteration yields the reverse, and it+n equals n increments.", "quantifier": "all histories of Append/Prepend/Clear with any ranges", "why_tests_cant": "History dependent container behaviour; errors appear only for particular range-count combinations.", "anchors": ["include/walnut/concat_range.h: ConcatRange, ConcatRangeIteratorHelper"]}
{"id": "C24", "title": "Planar range extraction covers the input cycle with planar pieces", "statement": "Each PlanarRange::Build returns vertices all coincident with plane(), takes a prefix and suffix of the remaining cycle, leaves the chord's two end vertices for the next round, makes progress, and returns the zero plane only when all vertices are collinear.", "quantifier": "all vertex sequences of any length", "why_tests_cant": "Loops over arbitrary vertex cycles with degenerate (duplicate, collinear) vertices.", "anchors": ["include/walnut/planar_range.h: PlanarRange::Build", "include/walnut/convex_polygon_factory.h: ConvexPolygonFactory::Build"]}
{"id": "C25", "title": "Deeds always point at the live object and at most one deed owns it", "statement": "After any sequence of creating, moving, swapping, lending, returning and destroying Deeds and moving, assigning and destroying targets, each target is owned by at most one non-lent deed, that deed's get() is the target's current address, and returning a borrowed deed restores the lender.", "quantifier": "all operation histories obeying the documented preconditions", "why_tests_cant": "Pointer-update protocols fail only for particular interleavings of moves and lends.", "anchors": ["include/walnut/deed.h: DeedTarget, GenericDeed, Deed"]}
{"id": "C26", "title": "Redirectable values form acyclic chains with one value per class", "statement": "After any sequence of construction, copy and Redirect calls, following redirects terminates at a primary, two handles are == iff they share a primary, Redirect merges the handle into the target's class, and each value is destroyed exactly once.", "quantifier": "all histories of construct/copy/redirect", "why_tests_cant": "Termination of primary() depends on absence of cycles over all histories.", "anchors": ["include/walnut/redirectable_value.h"]}
{"id": "C27", "title": "Planes built for repaired facets contain every vertex that cannot be moved", "statement": "NudgingPlaneBuilder::Build returns a plane coincident with every constrained vertex for which TryAddConstrained returned true.", "quantifier": "all sequences of AddUnconstrained / TryAddConstrained / HasLargePlane calls", "why_tests_cant": "Depends on call order; needs the adversarial history.", "anchors": ["include/walnut/nudging_plane_builder.h", "src/walnut/nudging_plane_builder.cpp", "src/walnut/mesh_plane_repairer.cpp"]}
{"id": "C28", "title": "Finalized mesh vertices lie on all their recorded adjacent planes", "statement": "After VertexInfo::Finalize the vertex is coincident with every plane recorded in it (when a common point exists), and vertices that compare equal share one VertexInfo.", "quantifier": "all points and all sets of up to three adjacent planes", "why_tests_cant": "Algebraic statement over unbounded coordinates.", "anchors": ["src/walnut/mesh_plane_repairer.cpp: VertexInfo::Finalize, TryAddAdjacent, AddVertexInfo"]}
{"id": "C29", "title": "Mesh queries return true extremes", "statement": "GetTopPoint returns a vertex that is maximal in the topness order and GetFarthest returns a vertex with maximal v-projection among all mesh vertices.", "quantifier": "all non-empty meshes and direction vectors", "why_tests_cant": "Quantifies over all meshes and homogeneous representations.", "anchors": ["include/walnut/mesh.h: GetTopPoint, GetFarthest"]}
{"id": "C30", "title": "Mesh centroid is the exact centroid of the solid", "statement": "For a closed mesh with non-zero volume GetCentroid returns exactly the centroid of the enclosed solid, and for any mesh exactly the documented sum over fan triangles, whatever denominators the vertices have; the weight of the result is 0 exactly when the volume is. It always returns when the denominators are positive; with negative ones the greatest common divisor can be undefined behaviour.", "quantifier": "all meshes with any number and size of polygons and any vertex denominators", "why_tests_cant": "The common-denominator bookkeeping (cache, lcm contributions) must be right for every multiset of denominators; that the formula is the centroid is the divergence theorem for closed surfaces.", "anchors": ["include/walnut/mesh.h: GetCentroid"]}
{"id": "C31", "title": "Extreme-vertex search on a convex polygon finds a true extreme", "statement": "ConvexPolygon::GetExtremeIndexBisect returns a vertex maximal in the given direction for every convex polygon and direction.", "quantifier": "all convex polygons of any vertex count and all directions", "why_tests_cant": "Binary search over a cyclic unimodal sequence with ties; failures need special plateau positions.", "anchors": ["include/walnut/convex_polygon.h: GetExtremeIndexBisect"]}
{"id": "C32", "title": "Split ranges classify every vertex of a convex polygon correctly", "statement": "ConvexPolygon::GetSplitInfo (linear and bisecting) returns disjoint cyclic ranges covering all vertices where exactly the vertices in the negative/positive range are strictly on that side and the others are on the plane.", "quantifier": "all convex polygons and all splitting half-spaces", "why_tests_cant": "Depends on cyclic structure and ties; infinite polygon/plane combinations.", "anchors": ["include/walnut/convex_polygon.h: GetSplitInfo, FindSplitRangesLinear, FindSplitRangesBisect", "include/walnut/convex_polygon_split_info.h"]}
{"id": "C33", "title": "Splitting a convex polygon partitions it", "statement": "When a convex polygon has points strictly on both sides of a plane, CreateSplitChildren returns two convex polygons in the same plane: the points of each are exactly the points of the parent on its closed side, their vertices are the parent vertices strictly on that side and two shared points on the plane.", "quantifier": "all convex polygons and splitting planes", "why_tests_cant": "Area/side preservation over all polygons.", "anchors": ["include/walnut/convex_polygon.h: CreateSplitChildren, FillInSplitChildren"]}
{"id": "C34", "title": "Merging adjacent polygons preserves the region", "statement": "When two convex polygons share an edge and TryMergePolygon succeeds, their normals have the same direction and the result is a convex polygon in the same plane, whose points are exactly the points of the two and whose vertices are vertices of the two. It fails only if the normals differ in direction, if the points of the two together are not a convex set, or if both polygons go straight on at one end of the common edge. It returns and satisfies all its assertions.", "quantifier": "all pairs of convex polygons and shared edge positions, all edge data", "why_tests_cant": "Index arithmetic wraps around in cyclic arrays; all offsets matter.", "anchors": ["include/walnut/convex_polygon.h: TryMergePolygon, TryMergeEdge"]}
{"id": "C35", "title": "Projected area and centroid are exact", "statement": "Whenever ConvexPolygon::GetProjectedArea, GetProjectedCentroid and GetCentroid return, they return the exact signed area and centroid of the polygon, for any number of vertices and any homogeneous weights; for a convex polygon the area has the sign of the normal and the centroid is strictly inside. They return whenever all weights are positive; with negative weights they need not, because the common divisor of the weights may overflow.", "quantifier": "all polygons of any vertex count with non-zero weights, all axes", "why_tests_cant": "A running common-denominator computation over unbounded vertex lists.", "anchors": ["include/walnut/convex_polygon.h: GetProjectedArea, GetProjectedCentroid, GetCentroid"]}
{"id": "C36", "title": "Monotone triangulation emits n-2 triangles that tile the polygon", "statement": "MonotoneTriangulator::Build on two chains emits exactly n-2 triangles over the input vertices whose boundary is the polygon (every other edge is used as often in one direction as in the other), so their signed areas sum to the signed area of the polygon. When the chains are monotone and do not cross (and homogeneous vertices have weights of one sign) it returns, every triangle is counter-clockwise or flat, every point of the polygon off the edges is strictly inside exactly one triangle and every other point in none.", "quantifier": "all pairs of chains of any length", "why_tests_cant": "Stack algorithm over unbounded chains and every turn pattern.", "anchors": ["include/walnut/monotone_triangulator.h"]}
{"id": "C37", "title": "BSP content is partitioned, never lost or duplicated", "statement": "After any sequence of adding convex polygons to a BSP tree and splitting its leaves by planes that are not those of their ancestors, every operation has returned without a failed assertion (with bounding boxes, undefined behaviour in a bounding box computation is the only other outcome), and the polygons in the leaves are the polygons added, each cut into pieces that have its id and plane, cover it and do not overlap. Each piece lies in the cell of its leaf, and it is in the border list exactly if it lies on the plane of an ancestor, on the side its back faces.", "quantifier": "all histories of AddContent/AddContents/Split, all planes, polygons and ids", "why_tests_cant": "Invariants over arbitrary histories and geometric positions.", "anchors": ["include/walnut/bsp_node.h: PushContentsToChildren, PushContentsToLeaves, Split", "include/walnut/bsp_tree.h: AddContent, AddContents"]}
{"id": "C38", "title": "Adding content to an existing tree is safe for every id the tree has room for", "statement": "BSPTree::AddContents may be called at any time with an id that is not larger than one used before the first split; with an id for which the children of the root have no entry, adding to a tree that has been split is an out-of-bounds access in every build (the API allows AllocateId and AddContent at any time and documents no such restriction).", "quantifier": "all histories of AddContents and Split, all ids", "why_tests_cant": "Only particular histories (new id after split) reach the out-of-bounds access.", "anchors": ["include/walnut/bsp_tree.h: AddContents", "include/walnut/bsp_node.h: PushContentsToChildren, AddRootContent"]}
{"id": "C39", "title": "Coplanar facets are emitted exactly where insideness flips", "statement": "For the polygons on one plane of the border of a leaf, PlanePartitioner returns (or, with bounding boxes, overflows the box); at every point of the plane off the edge lines, the polygons it emits are parts of exactly those at which the filter's answer changes while the polygons that contain the point are crossed one after the other; their number is even exactly if the answer before and after all of them is the same.  Called as BSPTraverser does and with a filter without OddPolygonFilter and XORFilter, at most one is emitted at a point, exactly where the leaf is inside and what is beyond the polygons is outside; with OddPolygonFilter, equal polygons that face the same way are all emitted.  The visitor is led through a partition of the cell, every emitted polygon is a part of a given one and carries exact edge information.", "quantifier": "all BSP trees that any history of AddContent and Split produces, all leaves without interior polygons, all sets of their border polygons on one plane, all ids, orientations and filters, all points", "why_tests_cant": "Unbounded stacks of polygons that overlap in any pattern, unbounded depth of the partition.", "anchors": ["include/walnut/plane_partitioner.h: PlanePartitioner::Run, PushToChildren, ProcessLeaf"]}
{"id": "C40", "title": "Event points are sorted and mutually linked, and the best split is reported with exact counts", "statement": "MakeEventPoints produces one start and one later end event per polygon, linked to each other, sorted by location; at one location the start events of polygons that are not flat come last, the two events of a flat polygon are neighbours, and new_location marks exactly the first event of each location. GetLowestCost returns the first cheapest place right after an end event that no other end event follows, with the numbers of polygons that begin before it and end after it. After DiscountBorderPolygons the counts are exactly the polygons that reach to the negative side of the split plane, to its positive side, and that lie in it, GetExtraPolygonCount is the number of polygons that cross it, and GetSplitPlane is the plane of that location with the normal in the positive direction.", "quantifier": "all polygon lists, all dimensions, all weights of either sign, all heap implementations, all excluded ids", "why_tests_cant": "Heap-based sweep over unbounded inputs with ties; which of several equal elements pop_heap takes is unspecified.", "anchors": ["include/walnut/polygon_event_point.h: MakeEventPoints, GetLowestCost, DiscountBorderPolygons, GetExtraPolygonCount, GetSplitPlane"]}
{"id": "C41", "title": "Exported vertices share one double point per vertex", "statement": "After VertexDoublePoint3Mapper::Map has been called with every edge, two double representations map to the same value exactly when they are joined by edges around a vertex; with the merger the VTK exporter passes, every vertex is exported as one point.", "quantifier": "all edge sequences, all numbers of representations per vertex, all call orders", "why_tests_cant": "The failure needs four representations of one vertex met in a particular order.", "anchors": ["include/walnut/vertex_double_point3_mapper.h: VertexDoublePoint3Mapper::Map", "vtk_interface/include/walnut/walnut_to_vtk_mesh.h: SaveWalnutMeshToVTK"]}
{"id": "C42", "title": "Repaired polygons are planar", "statement": "Every polygon that MeshPlaneRepairer::FinalizeMesh passes to its output has all its (final) vertices on the plane it is output with.", "quantifier": "all meshes: any number of facets, any facet sizes, any vertex positions and sharing", "why_tests_cant": "Whether a later facet moves a vertex off an earlier plane depends on the order and sharing of the whole mesh.", "anchors": ["include/walnut/mesh_plane_repairer.h: FinishFacet, FinalizeMesh"]}
{"id": "C43", "title": "Flat facets are not moved by the repair", "statement": "If every facet added to a MeshPlaneRepairer is already planar, no vertex moves: every output vertex is the same point as a vertex of the facet it came from, and lies on its polygon's plane.", "quantifier": "all meshes of planar facets of any size", "why_tests_cant": "Quantifies over all planar meshes and all sharing patterns.", "anchors": ["include/walnut/mesh_plane_repairer.h: MeshPlaneRepairer", "include/walnut/nudging_plane_builder.h: NudgingPlaneBuilder"]}
{"id": "C44", "title": "Flat facets with a small plane are kept whole", "statement": "If every facet lies on a plane whose coefficients are below 2^31, the repairer outputs exactly one polygon per facet, in order, with the same points in the same order.", "quantifier": "all such meshes", "why_tests_cant": "Quantifies over all meshes.", "anchors": ["include/walnut/mesh_plane_repairer.h: FinishFacet"]}
{"id": "C45", "title": "The pieces of a split facet have the facet's boundary", "statement": "When the repairer splits a facet, the resulting polygons together have the boundary of the (moved) facet: every inner edge is used once in each direction.", "quantifier": "all meshes and facets", "why_tests_cant": "Splits depend on which vertices other facets have fixed.", "anchors": ["include/walnut/mesh_plane_repairer.h: FinishFacet"]}
{"id": "C46", "title": "Repairing a mesh terminates", "statement": "Adding facets and finalizing always comes back: each round of splitting shortens the remaining facet.", "quantifier": "all meshes", "why_tests_cant": "Termination cannot be tested.", "anchors": ["include/walnut/mesh_plane_repairer.h: FinishFacet"]}
{"id": "C47", "title": "Polygon validity is convexity", "statement": "The ConvexPolygon constructors from vertices in convex position store exactly that polygon, IsValidState accepts every convex polygon, and what it accepts is a planar polygon whose edge lines run through their vertices in the direction of the next one.", "quantifier": "all vertex sequences of any length, all stored edges and planes", "why_tests_cant": "Convexity is a property of all vertex triples, IsValidState looks at neighbours only; acceptance of wrong polygons needs adversarial inputs.", "anchors": ["include/walnut/convex_polygon.h: ConvexPolygon, IsValidState", "include/walnut/convex_polygon_edge.h: IsValidState"]}
{"id": "C48", "title": "Splitting and merging polygon edges keeps the polygon", "statement": "SplitEdge with a point strictly inside an edge makes it a vertex and leaves the polygon the same convex set of points; TryMergeEdge at a vertex where the polygon goes straight on removes exactly that vertex when the edge data allow merging and otherwise changes nothing; either way the set of points is unchanged.", "quantifier": "all convex polygons of any size, edges and points on them, with any weights", "why_tests_cant": "Edge index wrap-around and vertex weights of either sign over all polygon sizes.", "anchors": ["include/walnut/convex_polygon.h: SplitEdge, TryMergeEdge", "include/walnut/convex_polygon_edge.h: CanMerge, Merge"]}
{"id": "C49", "title": "Polygon equality is equality of the stored polygon", "statement": "For convex polygons operator== is true exactly when the planes are equal with the same side, the vertices are the same cycle (from whatever vertex each starts) and the edges have equal data; in particular it is symmetric.", "quantifier": "all pairs of convex polygons and edge data", "why_tests_cant": "The exception needs data that differ on one particular edge.", "anchors": ["include/walnut/convex_polygon.h: operator=="]}
{"id": "C50", "title": "Inverting a polygon reverses it and nothing else", "statement": "Invert negates the plane and reverses the vertex cycle, the set of points stays, the lines of the edges run the other way through the same points, applying it twice gives the polygon back, and the data of every edge stay with that edge.", "quantifier": "all convex polygons of any size with any edge data", "why_tests_cant": "In-place reversal of two arrays with different offsets, for every size.", "anchors": ["include/walnut/convex_polygon.h: Invert"]}
{"id": "C51", "title": "Rotating and sorting vertices keeps the polygon", "statement": "RotateEdges changes only where the cycle starts; GetMinimumIndex returns the index of a lexicographically smallest vertex; SortVertices starts the polygon with it, so that equal polygons have the same vertices at the same indices afterwards.", "quantifier": "all convex polygons of any size, with any weights", "why_tests_cant": "Canonical forms quantify over all pairs of representations.", "anchors": ["include/walnut/convex_polygon.h: RotateEdges, GetMinimumIndex, SortVertices"]}
{"id": "C52", "title": "BSP edge annotations are exact", "statement": "After any history of adding polygons and splitting leaves, every edge of every polygon stored in the tree says correctly which plane on the path from the root is the first and which the last one that contains the edge, which is the last one that contains its start, and which plane made the edge if a cut did; a tracked bounding box is the bounding box of the piece.", "quantifier": "all histories, planes, polygons", "why_tests_cant": "Ranges of touched vertices wrap around and are updated incrementally at every split.", "anchors": ["include/walnut/bsp_edge_info.h", "include/walnut/bsp_node.h: SetBoundaryAngles callers", "include/walnut/bsp_polygon.h: SetBoundaryAngles", "include/walnut/bsp_polygon_wrapper.h"]}
{"id": "C53", "title": "BSP content counters are exact", "statement": "In every node of a tree built by any history, has_interior and has_border of an id are nonzero exactly if a polygon of the id at or below the node is in the inside of its cell, or on its border; in a leaf they are the numbers of polygons of the id in its lists. GetCostExclude returns the id with the largest interior count (the smallest such id) if at least two ids have one, and no id otherwise.", "quantifier": "all histories, nodes and ids", "why_tests_cant": "Counters over unbounded histories.", "anchors": ["include/walnut/bsp_node.h: content_info_by_id, GetCostExclude, PushContentsToChildren"]}
{"id": "C54", "title": "Split() picks allowed planes and ends", "statement": "Split() of a leaf with contents splits it by a plane that is not the plane of an ancestor. If the leaf has at most 40 polygons both children have fewer polygons in their contents lists, so that splitting the leaves of a tree repeatedly ends after at most the sum of 2^n-1 over the leaves.", "quantifier": "all trees, leaves, contents, and all results std::nth_element may give", "why_tests_cant": "Termination and a geometric precondition over all contents.", "anchors": ["include/walnut/bsp_node.h: Split, PickSplitPlane, PickQuarterTurnSplitPlane"]}
{"id": "C55", "title": "BSPTraverser shows the border of the result", "statement": "Traversing a BSP tree leaves a properly built tree with the same polygons in pieces, enters and leaves nodes and planes like brackets, shows only parts of added polygons, and returns if no leaf has more than 40 polygons off its border. Given winding numbers that agree with the tables of the nodes, at every point of a plane that is on no edge line and no other plane, the number of polygons shown, counting both orientations, is odd exactly if one side is inside of the boolean operation's result and the other is not. Without OddPolygonFilter and XORFilter a border is shown exactly once, facing outside, and where both sides are outside nothing is shown. Exception: where both sides are inside, which is the case between solids that touch, two polygons facing each other may be shown.", "quantifier": "all histories, filters, splitting strategies, hash orders and points", "why_tests_cant": "The result of a boolean operation as a point set, for all inputs and all iteration orders of a hash map.", "anchors": ["include/walnut/bsp_traverser.h: BSPTraverser", "include/walnut/bsp_visitor.h"]}
{"id": "C56", "title": "CollectorVisitor keeps every shown polygon with valid planes", "statement": "CollectorVisitor holds exactly the polygons it was shown, in order, and after the traversal every plane that an edge of a kept polygon says it lies on still exists (in the tree or owned by the visitor) and is the same plane. Exception: the plane that created an edge may be a plane that is gone.", "quantifier": "all histories, filters and traversals", "why_tests_cant": "Lifetime of planes referenced by pointers over all traversals.", "anchors": ["include/walnut/bsp_visitor.h: CollectorVisitor"]}
{"id": "C57", "title": "AABB::IntersectPlane is the part of the plane inside the box", "statement": "For a box that is not flat along the two axes other than the first axis the plane is not parallel to, AABB::IntersectPlane returns a convex polygon in the given plane, counter-clockwise from its positive side, whose points are exactly the points of the plane in the box, or an empty polygon; it is empty exactly when the part of the plane in the box is contained in one line. An invalid plane gives an empty polygon. A box flat along one of the other two axes can give a polygon with repeated vertices.", "quantifier": "all boxes with a positive denominator and all planes", "why_tests_cant": "Orientation and order of the four prism sides depend on the sign and position of the first nonzero normal component, and the two final cuts on every way a plane can touch a box.", "anchors": ["include/walnut/aabb.h: AABB::IntersectPlane"]}
{"id": "C58", "title": "A polygon is cut into monotone pieces", "statement": "MonotoneRange::Build, given any cycle of vertices, takes vertices from the front and the back of the cycle so that they form a polygon with two chains that never decrease in the monotone dimension, have the same ends and together are the taken vertices in their cyclic order. The remaining range is the rest of the cycle with the two ends of the cut, and neither of its inner ends would fit between the ends of the cut. Every call makes the remaining range shorter, so cutting a polygon of n vertices this way ends after at most n calls, and the pieces have the same total boundary as the polygon.", "quantifier": "all vertex lists of any length, with repeated vertices and equal coordinates; all monotone dimensions", "why_tests_cant": "The failure needs a particular interleaving of the coordinates of the first two and the last two vertices.", "anchors": ["include/walnut/monotone_range.h: MonotoneRange::Build, MonotoneRange::GetChains", "include/walnut/convex_polygon_factory.h: ConvexPolygonFactory::Build"]}
{"id": "C59", "title": "A monotone polygon is decomposed into convex polygons", "statement": "MonotoneDecomposer::Build, given the top and the bottom chain of a polygon, emits polygons that together have the boundary of the input polygon (every other edge is used as often in one direction as in the other). If the chains do not cross, every emitted polygon is either convex and counter-clockwise, with orientation -1, or has all its vertices on one line, with orientation 0. If the chains cross, every emitted polygon is convex, counter-clockwise or clockwise as its orientation says, or flat. Build never runs into undefined behaviour.", "quantifier": "all chains of any length, with Point3 or HomoPoint3 vertices, all drop and monotone dimensions", "why_tests_cant": "Whether a vertex may be added depends on the last two vertices of both sides only; that this keeps the whole polygon convex is an argument about all earlier merges.", "anchors": ["include/walnut/monotone_decomposer.h: MonotoneDecomposer::Build, MonotoneDecomposer::EmitTriangle", "include/walnut/monotone_triangulator.h: MonotoneTriangulator::Build"]}
{"id": "C60", "title": "Orientation of a monotone polygon is detected from its chains", "statement": "OrientingMonotoneDecomposer::Build, given the two chains of a monotone polygon in either order, emits polygons that together have the boundary of the cycle along the first chain and back along the second one. If the chains do not cross, the emitted polygons are convex: counter-clockwise (orientation -1) if the first chain is the bottom chain, clockwise (orientation 1) if it is the top chain, or flat (orientation 0). If the chains cross, every emitted polygon is convex, counter-clockwise or clockwise as its orientation says, or flat. If all vertices are on one line, only a polygon with orientation 0 is emitted.", "quantifier": "all chains of any length with common ends, with Point3 or HomoPoint3 vertices, all drop and monotone dimensions, both orders of the chains, with and without assertions", "why_tests_cant": "Which chain is the top one is read off the first vertices that are not on one line; the cases in which that is the wrong vertex need several vertices in special position and depend on the order of the chains.", "anchors": ["include/walnut/orienting_monotone_decomposer.h: OrientingMonotoneDecomposer::Build, OrientingMonotoneDecomposer::DetectOrientation, OrientingMonotoneDecomposer::EmitRange"]}
{"id": "C61", "title": "A polygon in space is cut into convex polygons", "statement": "ConvexPolygonFactory::Build, given the cycle of vertices of a polygon that need not be planar or convex, either emits valid convex polygons or never returns; it returns after at most one round per vertex if every monotone range makes progress. Every emitted polygon has vertices of the input as its vertices, is planar and convex, has one edge line per vertex and a plane around whose normal the vertices are counter-clockwise, so that the assertions of the constructor of ConvexPolygon hold. The boundaries of the emitted polygons add up to the boundary of the input, so their vector areas add up to its vector area. For a polygon that does not cross itself the emitted polygons do not overlap and all face the same way.", "quantifier": "all vertex cycles of any length, planar or not, with and without assertions", "why_tests_cant": "The polygons depend on all four stages (planar ranges, monotone ranges, orientation, decomposition); a polygon for which the loop does not end or a part is turned around needs a particular interleaving of the coordinates.", "anchors": ["include/walnut/convex_polygon_factory.h: ConvexPolygonFactory::Build, ConvexPolygonFactory::GetPlaneOrientationAfterProjection, ConvexPolygonFactory::EmitOriented"]}
{"id": "C62", "title": "Half-edges on a line are connected with their nearest counterparts", "statement": "EdgeLineConnector::ConnectEdgesInLine, given the half-edges of a closed surface that lie on one line, sorted by their lower end points, splits the half-edges where needed and connects every resulting half-edge with a partner: the two refer to each other, run between the same two points in opposite directions, and between these points no other half-edge of the surface lies between the two in the rotation around the line. Every half-edge is split into consecutive parts of positive length that lead from its first to its second vertex. No error is reported and no assertion fails. If the half-edges come from an open polyhedron, an error is reported, as many half-edges as possible are connected in the same way, and the others have no partner.", "quantifier": "all lists of half-edges on any line with any polygon normals, any number of them overlapping, all orders in which equal end points leave the heap, with and without assertions", "why_tests_cant": "Which half-edges are active, split and unpartnered depends on the whole history of overlapping half-edges before a location; the wrong cases need an edge to end or begin between two connected ones.", "anchors": ["include/walnut/edge_line_connector.h: EdgeLineConnector::ConnectEdgesInLine, ProcessEndEvents, ProcessNeedPartners, MaybeSplitEdge", "include/walnut/connected_polygon.h: ConnectedEdge::IsPositive, GetBeginLocation, GetEndLocation", "include/walnut/convex_polygon.h: ConvexPolygon::SplitEdge"]}
{"id": "C63", "title": "All edges of a plane are grouped into lines and connected", "statement": "EdgeLineConnector::ConnectUnsorted, given the edge deeds of a plane in any order, some of them empty: the comparison it sorts with is a strict weak order, as std::sort requires, and fails no assertion. Every edge is connected exactly once, together with exactly the edges on the same geometric line, whatever their directions. If the edges on every line belong to a closed surface, no error is reported, no assertion fails, and every edge is split into parts connected with their nearest counterparts, as in C62.", "quantifier": "all planes, all dropped dimensions in which the normal is not 0, all lists of edges in the plane with any polygon normals, any number of lines, empty deeds anywhere, all results of an unstable sort, with and without assertions", "why_tests_cant": "A comparison that is not a strict weak order, or edges of one line that are not next to each other after sorting, only show for particular sets of directions and offsets, and then depend on the sort implementation.", "anchors": ["include/walnut/edge_line_connector.h: EdgeLineConnector::operator(), ConnectUnsorted, ConnectSorted, SortEdgesInPlane, FindNextLineStart, EdgeCompare"]}
{"id": "C64", "title": "Merging connected polygons keeps the mesh consistent", "statement": "A mesh is consistent if every edge knows its polygon, and the partner of an edge refers back to it and runs between the same two points in the opposite direction. In a consistent mesh where edges that follow each other straight on both have partners or both have none (every closed mesh), ConvexPolygon::TryMergePolygon along an edge and its partner fails no assertion, follows no dangling or null pointer, and leaves a consistent mesh: on success the first polygon covers exactly the points of both, the second one is empty, all other polygons cover the points they did, no edge is new and none loses its partner; otherwise nothing is changed. The loop of ConnectingVisitor that merges across all edges of a plane keeps the mesh consistent and, for every direction, the points covered by polygons that face it. In a closed consistent mesh, repeating GetNextAroundVertex visits only edges that start at the same point and comes back to the first edge. If an edge with a partner follows one without a partner straight on, the merge dereferences a null pointer; the other way round it leaves partners with different end points.", "quantifier": "all consistent meshes with any number of convex polygons of any size, all edges with partners, all lists of edges, all numbers of steps around a vertex, with and without assertions", "why_tests_cant": "Merging two polygons changes edges of polygons all around them through pointers; a pointer left to a removed edge or a partner that is one edge off only shows in a later operation on another polygon.", "anchors": ["include/walnut/connected_polygon.h: ConnectedEdge::CanMerge, Merge, EdgeMoved, GetNextAroundVertex, ConnectedPolygon::MergeConnectedEdge", "include/walnut/convex_polygon.h: ConvexPolygon::TryMergePolygon, TryMergeEdge", "include/walnut/connecting_visitor.h: ConnectingVisitor::LeaveInteriorNode"]}
{"id": "C65", "title": "Dividing polygons at a split plane keeps their event points correct", "statement": "For the split that GetLowestCost and DiscountBorderPolygons report and the plane of GetSplitPlane, PolygonEventPointPartition::ApplyPrimary fails no assertion and touches no array entry out of range or not yet written. Each polygon that crosses the plane is split, and its two parts go to the negative and the positive list; a polygon on one side goes to that list whole, marked as touching the plane exactly if it does; a polygon in the plane goes to the border list opposite to its normal. The index map says for each polygon where it went. The event points left for either child are again correct for the child's polygons, with one start and one end event for each, sorted, ties in the required order, and new_location marking the first event of each location.", "quantifier": "all lists of up to 2^57 polygons and correct event arrays in any dimension, all choices of excluded meshes, all positions of the polygons relative to the plane, with and without assertions", "why_tests_cant": "The event array is overwritten in place while it is read, end events are used to remember where their start events went, and the event points of the children are used unsorted in all later splits: a flag or index that is wrong for one arrangement of ties corrupts a tree many levels below.", "anchors": ["include/walnut/polygon_event_point.h: PolygonEventPointPartition::ApplyPrimary, IsNewLocationCorrect"]}
{"id": "C66", "title": "The event points in the other dimensions are divided correctly unless polygons are flat", "statement": "After a split has been applied in one dimension, PolygonEventPointPartition::ApplySecondary divides the event points of another dimension between the children. If no polygon is flat in that dimension (its lowest and highest coordinate differ), and in debug builds also no polygon lies in the split plane, then it ends, fails no assertion, touches no array entry out of range or not yet written, and the event points of both children are correct for the children's polygons: one start and one end event for each, sorted, ties in the required order, and new_location marking the first event of each location. In a debug build, a polygon in the split plane can make the assertion on new_location at the top of the loop fail although the input is correct; without assertions the result is correct. If polygons are flat in the dimension, the events of a flat polygon can come after the start event of another polygon at the same location; the next split of that child then counts a polygon twice, fails an assertion in debug builds and leaves polygons without vertices in release builds.", "quantifier": "all lists of polygons and correct event arrays in any dimension, all ways in which polygons are divided by a plane of another dimension, all orders in which equal elements leave the merge heap, with and without assertions", "why_tests_cant": "Two sequences of events are merged, one of them a heap whose order among equal elements is not specified, while the array that is read is overwritten with indices of the children; which loop handles an event depends on everything seen before at that location.", "anchors": ["include/walnut/polygon_event_point.h: PolygonEventPointPartition::ApplySecondary, CompareHeapLocationToMain, PolygonMergeEvent, PolygonMergeEventCompare"]}
{"id": "C67", "title": "Splitting a node with event points is splitting it at a plane", "statement": "BSPNode::Split(partition, ...), called for a leaf whose polygons have bounding boxes, with a partition that GetLowestCost and DiscountBorderPolygons found in correct event points of a dimension, leaves the same tree as BSPNode::Split(half_space) with the plane of GetSplitPlane, except for the order of the polygons in the children's lists: the same polygon parts with the same edges, marks and boxes in the contents and border lists of the same children, and the same numbers and winding numbers in the children's tables, if Split(half_space) has defined behaviour. The children's polygons have bounding boxes again, and the event points left for the children are correct for them, in that dimension always, and in the others, after ApplySecondary, if no polygon is flat there and, in debug builds, none is in the plane.", "quantifier": "all leaves of all trees, all boxed convex polygons, all dimensions and correct event arrays of up to 2^57 polygons, with and without assertions", "why_tests_cant": "The two functions share almost no code: one classifies every vertex against the plane, the other knows only the lowest and highest vertex of a polygon and walks outwards from it. That they mark the same edges and count the same polygons must hold for every position of every polygon.", "anchors": ["include/walnut/bsp_node.h: BSPNode::Split, SetPolygonCountFromContents", "include/walnut/bsp_polygon.h: BSPPolygon::SetAdjacentBoundaryAngles", "include/walnut/polygon_event_point.h: PolygonEventPointPartition::ApplyPrimary, GetSplitPlane, ApplySecondary", "include/walnut/aabb_convex_polygon.h: AABBConvexPolygon::min_vertex, max_vertex"]}
{"id": "C68", "title": "Splitting with event points does not change what a traversal shows", "statement": "BSPTraverser::Run splits a leaf with many polygons with event points where that is estimated to be cheap, passes the event points on to the two children, and uses BSPNode::Split() otherwise. If the polygons of a leaf have bounding boxes and planes that are not perpendicular to an axis, or are at most as many as the bound given for BSPNode::Split(), every such split is one that Split(half_space) could have done with a plane that is not one of the ancestors', up to the order of polygons in lists; no assertion fails and nothing is undefined outside BSPNode::Split() if Split(half_space) is defined, and the event points passed on are correct for the children in all three dimensions. So the traversal shows the border of the result exactly as in C55. Exceptions: with polygons perpendicular to an axis the event points can become wrong (C66), so that the union of two tetrahedra with default arguments fails an assertion, or has undefined behaviour without assertions, although BSPNode::Split() alone gives a result. A bound of -1, documented to disable the splits with event points, has this effect only if the root is a leaf, since the bound is not passed on to existing children.", "quantifier": "all trees built by any calls, all strategies, bounds and sets of up to 2^57 polygons, all results of the heap operations, with and without assertions", "why_tests_cant": "The event points of three dimensions are carried from node to node for the whole traversal; one that is wrong at one level only shows when a much smaller node further down is split in another dimension.", "anchors": ["include/walnut/bsp_traverser.h: BSPTraverser::Run, BSPTraverser::SplitStrategy::Split, InitializeEventPoints", "include/walnut/polygon_event_point.h: PolygonEventPointPartition::ApplyPrimary, ApplySecondary, GetLowestCost", "include/walnut/bsp_node.h: BSPNode::GetCostExclude, BSPNode::Split"]}
{"id": "C69", "title": "The edges of a result are handed to the connector once each, plane by plane", "statement": "During a traversal, ConnectingVisitor registers every edge of every polygon that it is shown with the first plane on the way to the leaf that the edge lies in, and hands the edges of a plane over to EdgeLineConnector when that node is left. It fails no assertion and follows no pointer that it does not know, every edge is handed over exactly once, the edges handed over together lie in one plane whose drop dimension is a nonzero component of its normal, and two edges with more than one point in common are always handed over together. The depth recorded with an edge is that of the plane that created it. The polygons are kept in the order shown; of what an edge says about the planes that it lies on, pointers to planes of the tree are kept and pointers to temporary planes are reset, but the plane that created an edge is not reset and may be gone.", "quantifier": "all trees built by any calls, all filters, all splitting strategies and groupings, all traversals that end, with and without assertions", "why_tests_cant": "Which node an edge is registered with depends on all planes on the way to its leaf. Two edges that should be partners come from different leaves at any distance in the tree, and one that is registered one node too deep leaves a hole in the result only then.", "anchors": ["include/walnut/connecting_visitor.h: ConnectingVisitor::Accept, EnterInteriorNode, LeaveInteriorNode", "include/walnut/bsp_edge_info.h: BSPEdgeInfo"]}
{"id": "C70", "title": "The border of a node without the walls of the box is the border of its cell inside the box", "statement": "GetNodeBorderNoBoundWalls returns convex polygons that are pieces of the cross-sections of the box with the planes on the way to the node, no two pieces of one cross-section having inner points in common. Every point of them is in the closed cell of the node and in the box and on one of these planes, and the normal of its polygon is that plane's, pointing out of the cell. Every facet of the cell that has an inner point in the box is there as far as it is in the box, including its edges. This holds if the box is flat along no axis and every plane on the way to the node crosses it; if one of them misses the box or only touches it in an edge or a corner, an assertion fails, whether or not it has a part in the border of the cell.", "quantifier": "all trees built by any calls, all paths to a node of the tree, all boxes with positive volume, polygons with and without bounding boxes, with and without assertions", "why_tests_cant": "The planes and the side taken at each of them can be in any position to each other and to the box; a polygon that is in the plane of a deeper node, or that is cut off by it completely, goes another way down the copied path.", "anchors": ["include/walnut/bsp_tree.h: BSPTree::GetNodeBorderNoBoundWalls", "include/walnut/aabb.h: AABB::IntersectPlane", "include/walnut/bsp_node.h: BSPNode::AddRootContent, Split"]}
{"id": "C71", "title": "The surface of an extrusion has no gap", "statement": "Extrude(bottom_cap, direction, direction_denom) returns the polygons that ConvexPolygonFactory makes of the bottom, of one side for each edge of the bottom and of the bottom moved by direction / direction_denom with the order of the vertices reversed, for any number of vertices. If the factory cuts each of these faces into convex polygons with the same boundary, the returned polygons are valid convex polygons and their surface has no gap: every point of every line is covered by as many edges that go one way along the line as by edges that go the other way, also where an edge of one polygon is only a part of an edge of another. For integer vertices no two of which have the same x or y coordinate in a face, and coordinates below 2^30 in absolute value, the factory of the library does this, or never returns for one of the faces.", "quantifier": "all caps with any number of vertices, planar or not, convex or not, all directions and denominators, with and without assertions", "why_tests_cant": "A side built with its vertices in the wrong order or a cap facing the wrong way still gives plausible polygons; that all edges match must hold for every number of vertices and every way in which the factory cuts the faces.", "anchors": ["src/walnut/extrude.cpp: Extrude", "include/walnut/extrude.h: Extrude", "include/walnut/homo_point3.h: HomoPoint3::AddOffset", "include/walnut/convex_polygon_factory.h: ConvexPolygonFactory::Build"]}
{"id": "C72", "title": "Removing the polygons emptied by merges keeps the mesh consistent, and the state checks never fail", "statement": "ConnectingVisitor::FilterEmptyPolygons leaves exactly the polygons with at least one edge, in their order, with the same planes, edges and partners, and a mesh that was consistent (C64) is consistent again: every edge refers to the polygon's new place, partners refer to each other. No face is lost: for every direction the same points are covered. IsValidState is true in every consistent mesh whichever edges are registered, so that none of the assertions on it fails while ConnectingVisitor merges polygons. If it is true, each registered edge with a partner has the same end points as the partner in the opposite direction.", "quantifier": "all consistent meshes, all positions and numbers of empty polygons, all registered edges including those already removed, all numbers of merges, with and without assertions", "why_tests_cant": "Polygons are moved over removed ones while edges of other polygons point at them; a back pointer that is not updated only shows when a neighbour is used later. The assertions run on all intermediate states.", "anchors": ["include/walnut/connecting_visitor.h: ConnectingVisitor::FilterEmptyPolygons, IsValidState, LeaveInteriorNode", "include/walnut/connected_polygon.h: ConnectedPolygon::operator=, SetEdgeBackPointers"]}
{"id": "C73", "title": "Connecting the edges of a closed surface leaves a consistent closed mesh with the same polygons", "statement": "When EdgeLineConnector needs to end an edge at a location between its end points, the edge is split there in its polygon: the first part ends at the location, the second part follows it in the polygon and goes on to the old end, the part passed first keeps the partner, which refers to it, and the part passed last has none; every other edge is unchanged. Connecting two edges changes nothing but their partners. Done for all lines of a set of convex polygons whose edges have no partners and are part of a closed surface on every line, this fails no assertion, and afterwards every edge has a partner with the same end points in the opposite direction that refers back to it, every polygon is convex with the same points and normal, and every edge refers to its polygon, which is what merging polygons (C64, C72) needs.", "quantifier": "all sets of convex polygons, all lines and numbers of edges on them, all orders of equal end points, all numbers of splits of the same edge, with and without assertions", "why_tests_cant": "The edges of a line belong to different polygons and are split in the middle of the sweep, while partners that were assigned before point at them; the same edge can be split any number of times and two edges of one polygon can be on the same line.", "anchors": ["include/walnut/edge_line_connector.h: EdgeLineConnector::operator(), MaybeSplitEdge", "include/walnut/connected_polygon.h: ConnectedEdge", "include/walnut/mutable_convex_polygon.h: MutableConvexPolygon::SplitEdge"]}
{"id": "C74", "title": "The finished mesh is closed, consistent and has the same surface as the polygons accepted", "statement": "After ConnectingVisitor has accepted the polygons of a closed surface, all nodes are left and FilterEmptyPolygons() is called, the polygons are non-empty and convex, every edge has a partner with the same end points in the opposite direction that refers back to it, GetNextAroundVertex() repeated from any edge comes back to this edge, and for every direction the polygons that face it cover exactly the points that the accepted polygons facing it cover. No assertion fails on the way. This holds for all orders of the nodes and of the edges in them.", "quantifier": "all sets of convex polygons that are a closed surface on every line, all partitions of the edges into nodes and all orders of them, all numbers of splits and merges, with and without assertions", "why_tests_cant": "Whether a merge is possible and which vertices it removes depends on all merges before; a partner left behind by one of them shows only when the mesh is walked later.", "anchors": ["include/walnut/connecting_visitor.h: ConnectingVisitor::LeaveInteriorNode, FilterEmptyPolygons, TakePolygons", "include/walnut/edge_line_connector.h: EdgeLineConnector::operator()", "include/walnut/connected_polygon.h: ConnectedEdge::GetNextAroundVertex, ConnectedPolygon"]}
{"id": "C75", "title": "Points are converted from doubles exactly, or rounded to the grain size", "statement": "HomoPoint3::FromDoublesExact returns the point with exactly the coordinates given, for all finite doubles. HomoPoint3::FromDoubles rounds every coordinate to the nearest multiple of 2^min_exponent, halfway cases upward. Decompose returns the mantissa of smallest absolute value. Exception: for a positive min_exponent FromDoubles rounds to integers only, not to multiples of 2^min_exponent.", "quantifier": "all finite doubles, normal and subnormal, and all values of min_exponent", "why_tests_cant": "there are 2^64 doubles per coordinate; shifts beyond a word, negative mantissas and halfway cases are a few of the combinations of three exponents and the grain size", "anchors": ["src/walnut/homo_point3.cpp: HomoPoint3::FromDoubles, HomoPoint3::FromDoublesExact, SafeShiftLeft", "include/walnut/double.h: Decompose"]}
{"id": "C76", "title": "A polygon with a bounding box keeps the right box through rotation, sorting and merging", "statement": "An AABBConvexPolygon made from a convex polygon has the smallest box of its denominator around the vertices, and its minimum and maximum vertex of each axis are extreme ones. RotateEdges, SortVertices and TryMergePolygon do to the polygon what they do without a box and leave the right box and extreme vertices; TryMergePolygon is refused in the same cases. IsValidState never fails because of the box. Polygons that are equal with their boxes are equal without, and also the other way round if all weights of the vertices are the same up to sign. Exceptions: in general equal polygons written with different denominators compare unequal because of their boxes, sorting a polygon without vertices divides by zero, and SplitEdge and TryMergeEdge, although they keep all vertices inside the box, leave wrong extreme vertices.", "quantifier": "all convex polygons with any number of vertices and any coordinates and weights, all rotations and merges, all edge data", "why_tests_cant": "The extreme vertices are kept as indices, which every operation has to move; a stale index shows only for polygons whose extreme vertex is moved past the end, and the rounding of boxes only for unequal denominators.", "anchors": ["include/walnut/aabb_convex_polygon.h: AABBConvexPolygon", "include/walnut/convex_vertex_aabb_tracker.h: ConvexVertexAABBTracker", "include/walnut/convex_polygon.h: ConvexPolygon"]}
