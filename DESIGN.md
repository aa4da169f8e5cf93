# Formal model of bluelightning32/walnut in Rocq

`properties.jsonl` lists the properties, `MANIFEST.json` says which theorem
proves which property, `seeded/LOG.jsonl` records the wrong programs the theorems
were tried on.  Everything else is in `rocq/theories`:

* `*Model.v`: executable Gallina definitions only.  Each one cites the file and
  lines of `/repo` it models and says where it simplifies.
* `*Spec.v`: small specifications that do not use the model's helpers (rational
  points, half-spaces, convex cycles, point sets of polygons, cells of a BSP tree,
  winding numbers, histories of calls).
* `*Proofs.v`: lemmas.
* `Prop*.v`: the property theorems with short proofs, examples that meet their
  hypotheses, and `Print Assumptions` below each theorem.

A theorem named `..._refuted` proves that a property is false of the code as
modelled, for a witness or a whole class of inputs; the class is in its
statement.  `..._partial` is a theorem with a hypothesis the property does not
have.  In the manifest a property with such theorems is "partial", unless the
statement in `properties.jsonl` itself names the exception.

## Trusted base

* Coq 8.16.1: its kernel (`coqc`, re-checked by `coqchk`), and for reading the
  statements, its parser and notations.
* Axioms: none.  `Print Assumptions` reports "Closed under the global context" for
  every theorem in the manifest (`tools/assumptions.sh` prints the list).  Loading
  the standard library brings `Coq.ssr.ssrunder.Under_rel.*` (module type fields of
  ssreflect) into the environment that `coqchk` lists; no theorem uses them.
  No axiom, `Admitted`, functor, module type or section-less variable is added.
* Libraries: the Coq standard library only (`ZArith`, `QArith`, `List`, `Lia`,
  `Lqa`, `Permutation`, `Sorting`).
* The correspondence of the model to the C++ text, which is by reading.  The
  citations in the comments are there to make it checkable.
* The C++ language as we read it: two's complement `int64_t`, wrap-around of
  `uint64_t`, evaluation order where the code depends on none, `std::vector`,
  `std::map`, `std::set`, `std::sort`, `std::nth_element`, `std::unordered_map`
  by their contracts.

## Modelling decisions

* `BigUIntWord` is a `Z` in `[0, 2^64)`; every operation writes its wrap-around
  (`mod 2^64`) explicitly.  `BigInt`/`BigUInt` are little-endian word lists.
  In-place operations and division have an explicit memory of cells, so that
  aliasing, uninitialised reads and out-of-bounds writes are visible.
* Outcomes: `res A := Ok a | AssertFail | UB | NoFuel`.  `UB` is undefined
  behaviour (out-of-bounds access, uninitialised word, division by zero,
  `INT64_MIN / -1`, `llabs(INT64_MIN)`, null or dangling pointer), `AssertFail` a
  debug assertion that fires (the parameter `dbg` selects the build).  Loops are
  structural or have fuel; `NoFuel` is excluded by the theorems.
* The geometry layer uses `Z` for `BigInt`.  C01-C05 and `GeoBridge.v` (which runs
  the geometric formulas on the word model and proves the same result) justify
  that.  Where an operation on `BigInt` can be undefined (division, abs, gcd), the
  geometry model calls a function with the same failing inputs.
* Rational points are specified in `Q`.
* Templates are modelled at the types the library itself uses; callbacks
  (filters, visitors, grouping of event points) are parameters of the model, and
  the theorems quantify over them.
* Pointers to planes and nodes are modelled by values plus, where identity
  matters (Deed, RedirectableValue, CollectorVisitor), by addresses.

## What is modelled

| code | model | properties |
|------|-------|-----------|
| big_uint_word.h | WordModel | C10 |
| big_int.h, big_int.cpp, big_uint.h, big_int_words.h | BigIntModel, BigUIntModel, BigIntMemModel | C01-C09 |
| rational.h, vector2.h, vector3.h, point2/3.h, homo_point2/3.h, half_space2/3.h, half_space2_sideless_compare.h, plucker_line.h and their .cpp | GeoModel | C11-C18 |
| aabb.h, aabb.cpp, convex_vertex_aabb_tracker.h | AabbModel, AabbPlaneModel | C19, C57 |
| boolean_operation_filter.h, filters in bsp_visitor.h, bsp_content_info.h | FilterModel | C20 |
| r_transformation.h/.cpp | RTransModel | C21 |
| m_log_n_estimator.h/.cpp | EstModel | C22 |
| concat_range.h | ConcatModel | C23 |
| planar_range.h and its use in convex_polygon_factory.h | PlanarModel | C24 |
| deed.h | DeedModel | C25 |
| redirectable_value.h, vertex_double_point3_mapper.h, the merger of walnut_to_vtk_mesh.h | RedirModel | C26, C41 |
| nudging_plane_builder.h/.cpp, mesh_plane_repairer.h/.cpp | NudgeModel | C27, C28, C42-C46 |
| mesh.h | SolidModel | C29, C30 |
| convex_polygon.h, convex_polygon_edge.h, convex_polygon_split_info.h, mutable_convex_polygon.h | PolyModel, PolyOpsModel | C31-C35, C47-C51 |
| monotone_triangulator.h | TriModel | C36 |
| bsp_node.h, bsp_tree.h, bsp_polygon.h, bsp_edge_info.h, aabb_convex_polygon.h, split_side.h | BspModel | C37, C38, C52-C54 |
| plane_partitioner.h | PartModel | C39 |
| bsp_traverser.h, CollectorVisitor in bsp_visitor.h | TravModel | C55, C56 |
| polygon_event_point.h: MakeEventPoints, GetLowestCost, DiscountBorderPolygons, GetSplitPlane | EvtModel | C40 |
| monotone_range.h and its use in convex_polygon_factory.h | MonoRangeModel | C58 |
| monotone_decomposer.h | DecModel | C59 |
| orienting_monotone_decomposer.h | OrientModel | C60 |
| convex_polygon_factory.h, for Point3 vertices | FactoryModel | C61 |
| edge_line_connector.h: `ConnectEdgesInLine` and what it calls; the members of connected_polygon.h it reads; half-edges, map iterators and edge pointers are numbers, the heap is any order of the lowest end points | ConnModel | C62 |
| edge_line_connector.h: `EdgeCompare`, `SortEdgesInPlane`, `FindNextLineStart`, `ConnectSorted`, `ConnectUnsorted`; the sort is any function that returns a sorted rearrangement; the vertex counts asserted in `EdgeCompare` are not modelled | ConnPlaneModel | C63 |
| polygon_event_point.h: `ApplyPrimary`, `IsNewLocationCorrect`. The polygons are abstract: their extreme vertices, splitting and the marks for borders are operations given to the model | PrimModel | C65 |
| polygon_event_point.h: `ApplySecondary`, `CompareHeapLocationToMain`, `PolygonMergeEvent`, `PolygonMergeEventCompare`. The heap is known by the contract of push_heap and pop_heap | SecondModel | C66 |
| bsp_node.h: `Split(partition, ...)`, `SetPolygonCountFromContents`; bsp_polygon.h: `SetAdjacentBoundaryAngles`; what ApplyPrimary calls for a BSP polygon with a box | KdModel | C67 |
| bsp_traverser.h: `SplitStrategy`. BSPNode::Split() is a function given to the model, the choices of the heaps are arbitrary | StratModel | C68 |
| connecting_visitor.h: constructor, `Accept`, `EnterInteriorNode`, `LeaveInteriorNode` without the changes of the mesh: the maps, the edges registered, the groups handed over, the pointers reset. `IsValidState` is in TidyModel, the freelist is not modelled | ConnVisModel | C69 |
| bsp_tree.h: `GetNodeBorderNoBoundWalls` | NodeBorderModel | C70 |
| connecting_visitor.h: `FilterEmptyPolygons`, `IsValidState`, the merging part of `LeaveInteriorNode` with its assertions | TidyModel | C72 |
| edge_line_connector.h: `MaybeSplitEdge` and the assignments to partners after it, on the polygons: `SplitEdge`, the edge inserted, the partners; connected_polygon.h: `ConnectedEdge(parent_edge, vertex)` | SplitModel | C73 |
| connecting_visitor.h: leaving all nodes, then `FilterEmptyPolygons`, for a mesh whose edges are all connected | FinishModel | C74 |
| double.h: `Decompose`; homo_point3.cpp: `FromDoubles`, `FromDoublesExact`, `SafeShiftLeft`. A finite double is an integer of at most 53 bits times a power of 2; `frexp` and `scalbn` are modelled by what the C standard says about them | DoubleModel | C75 |
| aabb_convex_polygon.h: constructors, `IsValidState`, `RotateEdges`, `SortVertices`, `operator==`, `TryMergePolygon`, the inherited `SplitEdge` and `TryMergeEdge` (splitting is in BspModel) | AabbPolyModel | C76 |
| extrude.cpp: `Extrude`; the factory for HomoPoint3 vertices is a function given to the model, the one for Point3 vertices is FactoryModel | ExtrudeModel | C71 |
| connected_polygon.h: `ConnectedEdge` (`CanMerge`, `Merge`, `EdgeMoved`, `edge_index`, `GetNextAroundVertex`), `MergeConnectedEdge`; convex_polygon.h: `TryMergePolygon`, `TryMergeEdge` for connected polygons; the merging loop of connecting_visitor.h. Pointers to edges are numbers that follow the edge when it is moved; the move constructor and assignment are not modelled on their own | LinkModel | C64 |

## What is not modelled

* Conversions to `double` (double_point3.h, `ToDouble`-style members, `BigInt::operator
  double`), `GetDiagonalLength`'s square root (its radicand is
  modelled), stream output other than of `BigInt`, hashing of geometric types.
* Everything that needs VTK (vtk/ directory) except the vertex merger.
* `stop_watch.h`, `member_forward.h`, `assignable_wrapper.h`,
  `transform_iterator.h`: no behaviour of their own.
* Memory management below the level at which identity matters: allocation
  failure, moves of `std::vector`, exceptions.
* Not yet: the rest of connected_polygon.h,
  `ConvexPolygon::EdgeParent` provenance,
  `GetNodeBorder`.

## How each property is proved

| id | method |
|----|--------|
| C01-C04 | refinement of word lists to Z, induction on words; expression trees of any depth by structural induction |
| C05 | loop invariants for quotient and remainder in the cell memory, release and debug semantics |
| C06 | induction on the value; buffer bound by counting digits |
| C07 | refinement with aliasing; the failing classes are characterised completely |
| C08, C09 | well-founded induction; bit loops |
| C10 | modular arithmetic, both variants against one specification |
| C11-C18 | algebra over Z and Q; refutations where a sign is forgotten |
| C19, C57 | interval arithmetic over Q; the tracker by an invariant over its insertions; IntersectPlane by reduction to C32/C33 |
| C20 | induction on filter expressions |
| C21 | lexicographic sign of the first non-zero coefficient of a polynomial in epsilon |
| C22 | invariant over the call history |
| C23-C28 | state machines, invariants over all histories of calls |
| C29, C30 | folds; the centroid by summing signed tetrahedra |
| C31-C35 | cyclic unimodal sequences, bisection invariants, convex cycles; equality of point sets |
| C36 | stack invariant of the triangulator; a winding count for the tiling |
| C37, C38, C52-C54 | invariant over all histories of adding and splitting; the tree relates to its cells and to the multiset of added polygons |
| C39 | recursion of the partitioner over the cells it makes; peeling as a walk of winding numbers |
| C40 | invariant of the heap and the finished part of the array, for every choice of a largest element; prefix counts for the cost loop |
| C41 | classes of a union-find over histories |
| C42-C46 | invariants of the repairer over all facet lists; refuted beyond four vertices |
| C47-C51 | point sets and cycles of stored polygons |
| C58 | specifications of the four scanning loops; what they leave is related to the cycle by positions; induction on the length of the range for the factory loop |
| C59 | boundary: an invariant over the triangles for any antisymmetric function of edges; convexity: an invariant of the two vectors (sorted by the order in which the vertices are processed, in convex position) and a lemma that the test of EmitTriangle is enough to see every pair of vertices from the new one in the right order |
| C60 | DetectOrientation's loop finds the first vertex off the line in the merged order (soundness with minimality, completeness); the sign of one turn then decides the role of the chain, from chains_ok or from the hypothesis told; a reversed convex cycle is convex with the other orientation; the rest is C59 |
| C61 | One call of EmitOriented: the flip makes the vertices counterclockwise around the normal, the skipped coincident vertices do not occur in a convex cycle, so the polygon meets the specification of C14 and its assertion holds. The loops: induction on the length of the range with C58, C60 and C24; every function of directed edges that is antisymmetric and additive along lines has the same sum over the parts as over the input, because the stages keep the boundary and the flat parts that are dropped contribute nothing. |
| C62 | The keys are a total preorder (quadrant, then cross product, then direction), so each half-edge has a rank. Invariant of the sweep: the active list is sorted by rank; every linked pair of pieces agrees in its lower end, and in its upper end once that has passed, and its half-edges were counterparts at every generic coordinate passed so far; the pieces of each half-edge form a walk. Loop over the edges without partners: a measure that counts wrongly partnered edges bounds the number of rounds, because in a closed surface the neighbour in the right direction always has the opposite direction and mates are mutual. Closedness at a generic coordinate just after the current location gives the mates of the active edges |
| C63 | Without the dropped dimension a line of the plane has a direction and an offset. The comparison is the lexicographic order of the direction up to sign (half rotation), the offset divided by the component of the direction, and the beginning of the edge; each is a strict weak order. Two edges are equal in the first two exactly if they are on the same line, so the edges of a line are consecutive after sorting. Each group meets the hypotheses of C62 and what is left is again the edges of a closed surface; induction on the number of lines. |
| C64 | Invariant: edges are unique and refer to their polygons, partners are symmetric with equal end points, straight successors have partners together. Removing a straight vertex on both sides of a pair of partners keeps it (LinkGoodProofs); so does splicing the edges of one polygon into another (LinkPolyProofs), whose geometry is that of C34. The loop is an induction over the edges. GetNextAroundVertex is injective on the finite set of edges, so a walk returns to its start. |
| C65 | The array is described by tokens (start or end of polygon i) in order. The loop invariant says, for the tokens read so far, what each child array, the index map and the two lists hold, and which entries of the original array have been reused (PrimInvProofs, PrimStepProofs). At the end the child tokens are a subsequence of the parent's plus the events at the plane, from which `events_ok` follows (PrimNegProofs, PrimTopProofs). |
| C66 | The loops are one machine, and the invariant of its states (SecondStepProofs) says which tokens each child has, for every polygon that is not finished where it is waited for (the main array, the heap, or a slot of a child array whose end is not known), and that all tokens below the present location have been emitted (SecondInvProofs, SecondHeapProofs). A potential decreases with each step. The counterexamples were found by searching small inputs with the model. |
| C67 | SetAdjacentBoundaryAngles marks the same edges as Split (KdMarkProofs). The number of polygons and the lists of a child depend only on which polygons it gets (KdDealProofs). A polygon is cut, kept, or put in the border list by both functions alike, told apart by its extent (KdCaseProofs, KdCutProofs); the two parts of a cut polygon are extents in the sense of C66 in every dimension (KdOtherProofs). KdProofs instantiates C65 and C66 with this. |
| C68 | The invariant of a strategy (`strategy_ok`) says that its event points are right for the polygons of the leaf in all dimensions. A polygon whose plane is not perpendicular to an axis is not flat in any dimension and neither are its parts, so C67 applies to every split; the cost cutoff makes sure that a split plane has polygons on both sides or in it, so it is not the plane of an ancestor. The traversal theorems C55 are for any strategy with such an invariant. |
| C69 | Induction over what a traversal emits (`emits`, C55). The open nodes are the planes of the path, with a log of the edges added to each. An accepted polygon lies on a plane of the leaf's path, so every edge's first plane is a node of the tree and never a temporary plane. When the node of plane h is left, an edge that was handed over below does not lie in h (otherwise its first plane would be h or above), so it overlaps neither an edge in h nor an edge from the other side, since a common segment would lie in h. |
| C70 | The first loop adds the cross-sections of C57 to an empty root; the second one is a chain of `Split` calls on leaves (C37). A polygon with a point strictly on the side taken has a piece with that point in the child taken; one in the plane itself goes to the child its normal points out of, because that is what the tree promises about border polygons. So a facet point stays on the path. Points on the edges of a facet are limits of inner ones, and polygons are closed. |
| C71 | The signed numbers given to edges cancel over the faces: each edge of the bottom is in one side and the moved one in another direction in the top, the edges along the direction cancel between neighbouring sides. The factory keeps the sum for each face (C61). Counting the edges that cover a point of a line is such a number, since it adds up along the line. |
| C72 | The new place of a polygon is the number of polygons with edges before it. What a consistent mesh (C64) demands is about edge numbers and points, which do not change, and about back pointers, which are set. In a consistent mesh the lines of partners are opposite because both go through the same two points (C18). The invariant of the merging loop is that the mesh is consistent, so every assertion on the way holds. |
| C73 | A simulation: the pieces of ConnModel are edges of the mesh, numbered by a list that grows by one for each split. A split of a piece is a split of the edge (C47 for the polygon), connecting two pieces is connecting the edges; a piece is only split at a location strictly inside of it, because its active entry ends later. The sweep is a sequence of these steps, by induction over it. Lines have no edges in common, so the edges of the lines done before are not changed. At the end C62 gives every piece a partner. |
| C74 | Composition: C73 gives a consistent mesh in which every edge has a partner. Splitting and connecting change no direction and no plane, so that what C64 needs about -2^63 is kept. Leaving a node keeps a closed mesh closed (C72, C64), by induction over the nodes; then C72 for the empty polygons. Partial: in the code the steps of different nodes are interleaved. C74_node is the step of one node (connecting its edges, then merging along them) in a mesh in which the edges of other nodes may or may not have partners yet; it needs that no other edge ends on the lines of the node's edges. |
| C75 | The odd part of an integer by its trailing zeros (C10); shifts as division by powers of 2; rounding at bit k-1 as rounding of the rational value. Powers of 2 with negative exponents in Q. |
| C76 | Rotation, sorting, merging and comparison of a polygon with its box: the tracker after each operation tracks the new vertices (C19 for the tracker, C34, C49, C51 for the polygon). The comparison: extreme values of equal sets of points, exact if all coordinates are multiples of 1/denominator. |
| C55, C56 | induction on the traversed tree, using C37 and C39 at the leaves |

## Findings

Places where the code as modelled does not do what its interface says.  Each is a
theorem unless marked (read).

* `BigInt`: `abs` of INT64_MIN, `INT64_MIN / -1`, the gcd of two negative numbers
  and `RoundDown`/`RoundUp` built on them are undefined behaviour
  (C03, C05, C08, C11, C13, C14, C16).  Debug builds can fail an assertion in
  division.  `DivideRemainder` with the divisor as `remainder_out` gives a wrong
  quotient (C05).  `++` overflows at the word boundary, leaves non-canonical words,
  and `a += a` reads words it has written (C07).
* `HomoPoint2::LexicographicallyLt` and `HomoPoint3::Get2DTwistDir` are reversed
  for weights of opposite sign (C14, C15).
* `HalfSpace3Compare` and `HalfSpace2SidelessCompare` are not strict weak orders,
  so that a `std::set` can drop a plane (C17).
* `AABB::GetDiagonalLength` divides the squared length by the denominator (C19).
  `AABB::IntersectPlane` returns a polygon with repeated vertices for flat boxes
  (C57).
* Filters: an id without a table entry counts as outside even for an inverted
  filter; `SubtractIdsFilter` reads entry 0 (C20).
* `ConcatRange::Prepend` of part of another one, and `operator+` (C23).
* `GenericDeed::Lend` leaves the target unaware of the borrower (C25).
* `RedirectableValue`: looking at a handle changes what a later redirect does
  (C26), and the VTK exporter's merger does not unite classes (C41).
* `NudgingPlaneBuilder`: an early `HasLargePlane` query freezes the plane;
  collinear vertices divide by zero (C27).  `VertexInfo::Finalize` with parallel or
  dependent planes (C28).  `MeshPlaneRepairer`: pentagons can come out non-planar
  (C42) and vertices taken from the end of a facet are output reversed (C45).
* `PlanarRange` with a repeated first vertex returns the zero plane (C24).
* `MonotoneDecomposer::EmitTriangle` multiplies the result of `Get2DTwistDir`,
  a signed 64 bit word, by the orientation: a cross product of exactly -2^63
  (coordinates of 2^31 are enough) is a signed overflow (C59).
* `MonotoneDecomposer` emits a polygon with a reflex vertex as convex if a chain
  contains a vertex twice or the chains touch at a vertex (C59).
* If both chains leave the minimum vertex vertically, one up and one down, and the
  first vertex to the right belongs to the first chain, OrientingMonotoneDecomposer
  takes the chains for each other.  For a concave polygon it then emits polygons
  outside of the input with the opposite orientation.  MonotoneRange produces such
  chains from simple polygons (C60).
* If the chains start on one line and everything else is on the last vertical line,
  OrientingMonotoneDecomposer takes the polygon to be flat, and drops it (with
  assertions, it stops).  If the minimum and the maximum are equal it reads the end
  of a chain (C60).
* `MonotoneRange::Build` makes no progress on some simple polygons, and then
  `ConvexPolygonFactory::Build` never returns (C58).
* `ConvexPolygonFactory::Build` emits parts of a simple polygon that face the
  other way and overlap others, for one in five of the random simple polygons
  tried, and never returns for one in six.  With equal coordinates it can emit a
  polygon that is not convex, which the constructor of `ConvexPolygon` asserts
  (C61).
* Area, centroid and mesh centroid are undefined for some negative weights (C30,
  C35).  `TryMergePolygon` refuses some merges although the union is convex (C34).
* `ConvexPolygon::IsValidState` accepts polygons that wind twice, lie on a line or
  repeat vertices (C47).  `operator==` never compares the data of the first edge
  and is not symmetric (C49).  `Invert` leaves edge data at their index (C50).
* `BSPTree::AddContent` with a new id after a split is out of bounds (C38).
* `OddPolygonFilter`: coincident facets facing the same way are all emitted (C39);
  touching solids show their common face twice (C55).
* `ProcessEndEvents` puts the partner of an edge that ends into the list of edges
  without partners twice.  If it finds no new partner (open polyhedron), it is split
  twice at the same point: an assertion of `SplitEdge` fails, or an edge of length
  zero remains.  Two edges that come between connected ones and are connected with
  each other leave the outer two connected, and no error is reported (C62).
* `CollectorVisitor` keeps pointers to planes that are gone (C56).
* (read) `BSPTraverser::Run` drops the caller's strategy below interior nodes;
  `assert(size >= polygon.id)` should be `>`; `PickSplitPlane` never looks at
  `contents_[mid - 1]`; `HomoPoint3::FromDoubles` ignores a positive minimal
  exponent; two empty polygons compare unequal.
* C64: merging connected polygons dereferences a null pointer when, at an end of
  the common edge where the outline goes straight on, the second edge has a partner
  and the first one has none (`partner_->partner_ = nullptr` in
  ConnectedEdge::Merge).  CanMerge returns true there.  With the partner on the
  first edge only, the call succeeds and leaves partners of different length.
  Meshes from closed surfaces have no such edges.
* C66: `assert(event_points_pos->new_location)` at the top of the loop of
  ApplySecondary does not hold in general: events of polygons in the split plane are
  skipped one by one, so the next event may be in the middle of a location.  Debug
  builds abort on correct input; release builds are not affected.
* C66: PolygonMergeEventCompare puts the start events of the heap after the end
  events, and the loops of ApplySecondary handle start events of the heap before those
  of the main array.  With polygons that are flat in the dimension (axis-aligned
  ones are) both can bring a start event of a polygon that is not flat before the
  events of a flat one, contrary to the order that MakePolygonEventPoints sets up.  The
  next split of the child in that dimension then counts one polygon as in the plane and as
  on the positive side: an assertion of ApplyPrimary fails, and without assertions
  both lists get a default-constructed polygon (C66_next_split_refuted).
* C66: ApplySecondary calls std::pop_heap on a range whose front element has just been
  modified, so that the range is not a heap.  The model takes the element to be
  removed all the same, as implementations do.
* C68: because of that, `BSPTraverser::Run` with default arguments fails on the union of
  two tetrahedra with small integer vertices, one of which has two faces
  perpendicular to axes: an assertion fails, and without assertions an entry of an array that
  does not exist is used (C68_flat_refuted).  The theorem is for one choice of the
  order among equal heap elements; in 2000 random runs of the model with other
  choices (not a proof) it failed each time.
* C68: `BSPTraverser::Run` for an interior node calls itself for the children without the
  bound, so the children use the default 6.  The documented way to disable splits with
  event points (-1) works only if the root is a leaf (C68_bound_refuted).
* C69: like `CollectorVisitor` (C56), `ConnectingVisitor` looks up `edge_created_by` but does
  not reset it: a polygon of the result may keep a pointer to a plane that was a local
  variable of `PlanePartitioner` (C69_created_refuted).

* C76: `AABBConvexPolygon::operator==` compares the bounding boxes first. They are rounded
  outward to the largest denominator of an extreme vertex, which depends on how the points
  are written: the same triangle with a vertex written as 1/2 or as 3/6 differs from itself,
  although ConvexPolygon's `operator==` says that they are equal (C76_equal_refuted). It is
  right if all weights are the same up to sign (C76_equal_exact, C76_exact).
* C76: `AABBConvexPolygon::SortVertices` (and `RotateEdges(0)`) of a polygon without vertices
  divides by zero; ConvexPolygon's does nothing (C76_sort_empty_refuted).
* C76: AABBConvexPolygon does not override `SplitEdge` and `TryMergeEdge`, which
  ConnectedPolygon<AABBConvexPolygon<>> makes public or calls. The box stays right
  (C76_split_edge), but the indices of the extreme vertices are not moved: `max_vertex`
  returns another vertex (C76_split_edge_refuted) or reads beyond the last one, and
  `IsValidState` becomes false (C76_merge_edge_refuted).
* C75: `HomoPoint3::FromDoubles` documents that it rounds to the grain size
  2^min_exponent. The denominator is at least 1, so for a positive min_exponent it
  rounds to integers only: with min_exponent 4 the coordinate 1.0 stays 1, which is no
  multiple of 16 (homo_point3.cpp 30-32).
* C70: `GetNodeBorderNoBoundWalls` (and `GetNodeBorder`, in the same way) asserts that every
  plane on the way to the node crosses the bounding box, which is not documented. A plane far
  away from the box or touching it in an edge fails the assertion, also if it has no part in the
  border inside the box (C70_missed). Without assertions an empty polygon with drop dimension -1
  is added and split.

## Seeded wrong programs

`tools/mutate.py SEEDS WORKDIR` applies one edit of a seed file in `seeded/` to a
copy of the development, rebuilds what depends on it and appends to
`seeded/LOG.jsonl` which property theorems no longer build.  An edit that leaves
every theorem standing although it falsifies the claim is a missed one; the log
says what was tightened.
