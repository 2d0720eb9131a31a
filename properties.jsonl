{"id": "C01", "title": "Union-find answers connectivity", "statement": "After any sequence of union(x,y) and find(x) calls on a UnionFind of size n, find(a)==find(b) holds exactly when a and b are connected by the pairs passed to union so far; every find returns (terminates) and no find changes which elements are connected.", "quantifier": "all n, all finite histories of union/find with in-range arguments, all a,b < n", "why_tests_cant": "path compression and rank rewrite the parent table on every call; only an invariant over all histories shows that the forest stays acyclic and the partition is the closure of the unions", "anchors": ["mmcore/ds/union_find.py: UnionFind.__init__, find, union"]}
{"id": "C02", "title": "group_tuples returns the connected components", "statement": "group_tuples(T) puts every occurrence of every tuple of T in exactly one group, and two tuples are in the same group exactly when they are linked by a chain of tuples sharing an element; inside a group the input order is kept and no group is empty.", "quantifier": "all lists of non-empty integer tuples", "why_tests_cant": "the chain length between two tuples is unbounded; examples only exercise short chains", "anchors": ["mmcore/ds/union_find.py: group_tuples, UnionFind"]}
{"id": "C03", "title": "AVL tree behaves as an ordered set", "statement": "After any sequence of insert(k) / delete(k) on an empty AVL tree, search(k) succeeds exactly for the keys inserted and not deleted since, and inorder_traverse lists exactly those keys in strictly increasing order.", "quantifier": "all finite histories of insert and delete over integer keys, all query keys", "why_tests_cant": "rotations and the in-order-successor deletion touch subtrees recursively; correctness needs an invariant over all shapes", "anchors": ["mmcore/ds/tree/avl.py: AVLTree.insert, delete, search, inorder_traverse, rebalance, lrotate, rrotate"]}
{"id": "C04", "title": "AVL tree stays height balanced", "statement": "After any sequence of insert/delete the stored height and balance of every node are the true ones, sibling subtrees differ in height by at most one, and a tree whose root has height h holds at least fib(h+3)-1 keys, so lookups visit O(log n) nodes.", "quantifier": "all finite histories of insert and delete", "why_tests_cant": "worst-case shape over all histories", "anchors": ["mmcore/ds/tree/avl.py: AVLTree.rebalance, update_heights, update_balances, lrotate, rrotate"]}
{"id": "C05", "title": "AVL tree maps keys to the last value stored", "statement": "A lookup of a key returns the value given by the latest assignment of that key; inserting or deleting other keys does not change it.", "quantifier": "all finite histories of assignments and deletions", "why_tests_cant": "whether a deletion elsewhere moves a value needs all tree shapes", "anchors": ["mmcore/ds/tree/avl.py: AVLTree.insert, delete, __setitem__, __getitem__"]}
{"id": "C06", "title": "Circular list keeps its ring and its sequence", "statement": "After any sequence of append / insert at a position >= 1 / removal by index the nodes form one ring: following next from the head visits exactly the stored items in sequence order and returns to the head after count steps, previous is the inverse of next, and len and get(i) agree with that sequence.", "quantifier": "all finite operation histories with in-range indices", "why_tests_cant": "pointer surgery: aliasing errors only show on particular histories", "anchors": ["mmcore/ds/cdll/cdll.py: CDLL.append, append_node, insert, remove_by_index, get, __iter__, __len__", "mmcore/ds/cdll/node.py: Node"]}
{"id": "C07", "title": "Circular list insert at the front", "statement": "insert(x, 0) makes x the first element and leaves the order of the other elements unchanged.", "quantifier": "all ring contents", "why_tests_cant": "the failure depends on the number of elements already present", "anchors": ["mmcore/ds/cdll/cdll.py: CDLL.insert"]}
{"id": "C08", "title": "Circular list removal by value", "statement": "remove(x) deletes the first element equal to x if there is one, raises or does nothing otherwise, and always leaves a well formed ring.", "quantifier": "all ring contents and all x", "why_tests_cant": "absent values and one-element rings are corner cases of the pointer code", "anchors": ["mmcore/ds/cdll/cdll.py: CDLL.remove"]}
{"id": "C09", "title": "k-d tree build keeps the points and the split order", "statement": "Building a balanced k-d tree keeps exactly the given multiset of points, records correct sizes, splits at the median (so depth is at most floor(log2 n)+1), and at each node all points on the left are <= and all on the right are >= the node on the node's axis.", "quantifier": "all finite lists of points of any fixed dimension", "why_tests_cant": "recursion over arbitrary point sets with ties", "anchors": ["mmcore/ds/bkdtree.py: BalancedKDTree.__init__, _build_balanced"]}
{"id": "C10", "title": "k-d tree nearest neighbour is exact", "statement": "nearest_neighbor(q) returns a stored point whose squared distance to q is minimal among all stored points, after building and after any sequence of insertions (with their partial rebuilds).", "quantifier": "all point lists, all insertion histories, all query points", "why_tests_cant": "pruning is only right if the split invariant holds on every reachable tree; ties on the split axis are the delicate case", "anchors": ["mmcore/ds/bkdtree.py: BalancedKDTree.insert, _insert_rec, _rebuild_subtree, _is_unbalanced, nearest_neighbor, _nearest_neighbor_rec"]}
{"id": "C11", "title": "k-d tree k-nearest returns k points", "statement": "k_nearest(q,k) returns min(k,n) stored points and they are the k closest.", "quantifier": "all trees, queries and k", "why_tests_cant": "depends on the interplay of heap fill level and pruning", "anchors": ["mmcore/ds/bkdtree.py: BalancedKDTree.k_nearest, _k_nearest_rec"]}
{"id": "C12", "title": "k-d tree deletion removes exactly one point", "statement": "delete(p) on a tree containing p removes one occurrence of p and nothing else; on a tree not containing p it changes nothing.", "quantifier": "all trees reachable by build/insert/delete and all points", "why_tests_cant": "ties on the split axis decide which side is searched", "anchors": ["mmcore/ds/bkdtree.py: BalancedKDTree.delete, _delete_rec, _find_min"]}
{"id": "C13", "title": "R*-tree finds everything it stored", "statement": "search(q) returns exactly the inserted rectangles that intersect q.", "quantifier": "all insertion histories and query boxes", "why_tests_cant": "bounding boxes on the path to a new leaf must be kept up to date in every history", "anchors": ["mmcore/ds/tree/rtree.py: RStarTree.insert, _choose_leaf, _split_node, search, Box, Rectangle"]}
{"id": "C14", "title": "Skip list is a sorted map under insertion", "statement": "After any sequence of insertions with any tower heights, the bottom level is the strictly sorted list of distinct keys each carrying the last value stored, every higher level is a sub-sequence of the one below, and lookup agrees with that map.", "quantifier": "all insertion histories, all random tower heights, all keys", "why_tests_cant": "tower heights are random, so a test run only sees some of the shapes", "anchors": ["mmcore/numeric/algorithms/sweep_line/skiplist.py: SkipList._scan, _insert, __setitem__, __getitem__, iteritems, __len__"]}
{"id": "C15", "title": "Skip list deletion removes one key", "statement": "Deleting a present key removes exactly that key and leaves all other keys retrievable.", "quantifier": "all skip lists reachable by insertions, all keys", "why_tests_cant": "depends on the random heights of the towers", "anchors": ["mmcore/numeric/algorithms/sweep_line/skiplist.py: SkipList._remove, _scan"]}
{"id": "C16", "title": "Interval sum, product and hull enclose all pointwise results", "statement": "If x is in X and y in Y then x+y is in X+Y, x*y is in X*Y; X and Y is the set intersection (and non-overlap is reported), X or Y contains both operands and is the least interval doing so.", "quantifier": "all intervals (low <= upp) and all member points", "why_tests_cant": "continuum of operands and of members", "anchors": ["mmcore/numeric/interval/_interval.py: Interval.__add__, __mul__, __and__, __or__, __contains__"]}
{"id": "C17", "title": "Interval difference, quotient and power enclose all pointwise results", "statement": "If x is in X and y in Y then x-y is in X-Y, x/y in X/Y when 0 is not in Y, x**n in X**n, and c*X, X/c enclose for every scalar c.", "quantifier": "all intervals, scalars and member points", "why_tests_cant": "sign patterns and zero crossing; continuum of members", "anchors": ["mmcore/numeric/interval/_interval.py: Interval.__sub__, __truediv__, __pow__, __mul__"]}
{"id": "C18", "title": "Interval comparison is sound", "statement": "When a comparison of two intervals is reported certainly true (false), the comparison is true (false) for all (no) choices of members.", "quantifier": "all pairs of intervals and all members", "why_tests_cant": "quantifies over all members", "anchors": ["mmcore/numeric/interval/_interval.py: Interval.compare, __lt__, __gt__, __le__, __ge__"]}
{"id": "C19", "title": "Bounding box of points is tight", "statement": "aabb(P) (three columns, or any number of columns with a supplied output array) contains every point of P and every axis-aligned box containing P contains aabb(P); the box of a segment contains both ends and lies in every box containing both; an empty point set is rejected.", "quantifier": "all non-empty finite point sets of every dimension", "why_tests_cant": "all point sets, all candidate boxes", "anchors": ["mmcore/numeric/_aabb.pyx: aabb, caabb", "mmcore/numeric/aabb.py: aabb"]}
{"id": "C20", "title": "Box overlap test and box intersection are exact", "statement": "aabb_intersect(A,B) is true exactly when some point lies in both closed boxes; aabb_intersection(A,B) is the box of exactly the common points, or reports none when there is none; both are symmetric.", "quantifier": "all pairs of boxes, all points", "why_tests_cant": "quantifies over all points of both boxes", "anchors": ["mmcore/numeric/_aabb.pyx: aabb_intersect, aabb_intersection", "mmcore/numeric/aabb.py: aabb_overlap, point_in_aabb"]}
{"id": "C21", "title": "Segment/box clipping is exact", "statement": "For segments none of whose extents is non-zero yet below 1e-15: segment_aabb_intersect reports a hit exactly when some point of the closed segment lies in the closed box, the two parameters bound exactly the parameters of those points, and segment_aabb_clip returns the sub-segment consisting of exactly those points.", "quantifier": "all segments and boxes", "why_tests_cant": "axis-parallel segments, zero-length segments and corner contacts; continuum of points", "anchors": ["mmcore/numeric/_aabb.pyx: segment_aabb_intersect, segment_aabb_clip, ray_aabb_intersect"]}
{"id": "C22", "title": "Quicksort and argsort sort", "statement": "quickSort leaves the array sorted and a permutation of its input; argSort yields a permutation of indices that sorts the values; out-of-range memory is never touched.", "quantifier": "all arrays of totally ordered values", "why_tests_cant": "all lengths and duplicate patterns", "anchors": ["mmcore/numeric/algorithms/_quicksort.c", "mmcore/numeric/algorithms/_quicksort.h", "mmcore/numeric/algorithms/quicksort.pyx"]}
{"id": "C23", "title": "Unique keeps each value once", "statement": "unique returns the strictly increasing array of the distinct values of its argument, and never reads or writes outside its arrays.", "quantifier": "all arrays", "why_tests_cant": "chains of close values", "anchors": ["mmcore/numeric/algorithms/_unique.c: uniqueSorted, uniqueSortedEps", "mmcore/numeric/algorithms/quicksort.pyx: unique"]}
{"id": "C24", "title": "Binomial table", "statement": "binomial_coefficient(n,k) is the number of k-subsets of an n-set for 0 <= k <= n <= 30 and 0 for k > n.", "quantifier": "all n,k within the table, and the recurrence for every entry", "why_tests_cant": "finite but 961 entries; relied on by every Bezier routine", "anchors": ["mmcore/numeric/binom.pyx: binomial_coefficient"]}
{"id": "C25", "title": "Bezier to monomial conversion keeps the polynomial and is invertible", "statement": "Evaluating the monomial coefficients produced from Bezier control points at any parameter equals the Bernstein sum of the control points, and converting back returns the control points.", "quantifier": "all degrees, control points and parameters", "why_tests_cant": "continuum of parameters; every degree", "anchors": ["mmcore/numeric/monomial.py: bpmat, bezier_to_monomial, monomial_to_bezier, evaluate_monomial2d, evaluate_bezier_patch"]}
{"id": "C26", "title": "Bezier degree elevation keeps the curve", "statement": "degree_elevation_bez(P, p, t) returns p+t+1 control points describing the same curve for every parameter, with the same end points.", "quantifier": "all degrees p and elevations t with p + t <= 30, all control points and parameters", "why_tests_cant": "continuum of parameters; every degree", "anchors": ["mmcore/geom/curves/knot.py: degree_elevation_bez"]}
{"id": "C27", "title": "Divide-and-conquer minimisation brackets the minimiser", "statement": "For a function that strictly decreases then strictly increases on [a,b] the iterative and the recursive quarter-section search stop and return a parameter within half the tolerance of the minimiser; the maximum search does the same at a maximum; for any function at all the search stops, and the returned parameter lies in [a,b] with its own value.", "quantifier": "all functions, all bounds and tolerances > 0", "why_tests_cant": "functions range over an infinite space", "anchors": ["mmcore/numeric/divide_and_conquer.py: iterative_divide_and_conquer_min, recursive_divide_and_conquer_min, recursive_divide_and_conquer_max"]}
{"id": "C28", "title": "Divide-and-conquer roots", "statement": "recursive_divide_and_conquer_roots on a continuous function with a sign change returns an approximate root.", "quantifier": "all functions with a sign change", "why_tests_cant": "functions range over an infinite space", "anchors": ["mmcore/numeric/divide_and_conquer.py: recursive_divide_and_conquer_roots"]}
{"id": "C29", "title": "BVH keeps every object and bounds it", "statement": "build_bvh(objects) terminates with a tree whose leaves hold exactly the given objects, each once, whose every node box contains all objects below it, and whose leaves hold at most objects_in_leaf objects.", "quantifier": "all non-empty object lists and leaf sizes >= 1", "why_tests_cant": "recursive splitting over arbitrary boxes with equal centres", "anchors": ["mmcore/geom/bvh/__init__.py: build_bvh, split_objects, BVHNode, Object3D"]}
{"id": "C30", "title": "BVH box query is exact", "statement": "traverse_bvh(root, box) collects exactly the stored objects whose box meets the query box, each once.", "quantifier": "all built trees, all query boxes", "why_tests_cant": "pruning is right only because every ancestor box covers its subtree", "anchors": ["mmcore/geom/bvh/__init__.py: traverse_bvh, BoundingBox.intersect"]}
{"id": "C31", "title": "BVH pair query is exact", "statement": "intersect_bvh_objects(A,B) yields exactly the pairs (a,b) of stored objects whose boxes meet, each once.", "quantifier": "all pairs of built trees", "why_tests_cant": "simultaneous descent over all shape combinations", "anchors": ["mmcore/geom/bvh/__init__.py: intersect_bvh_objects"]}
{"id": "C32", "title": "Splitting a bounding box partitions it", "statement": "BoundingBox.split(param) cuts the box at the given fraction: the two halves are inside the box, cover it, meet only on the cut, and their own overlap tests see the new extents.", "quantifier": "all boxes and parameters in (0,1)", "why_tests_cant": "boxes away from the origin", "anchors": ["mmcore/geom/bvh/__init__.py: BoundingBox.split, expand, evaluate, intersect"]}
{"id": "C33", "title": "Knot span search finds the span", "statement": "The span searches (find_span; find_span_linear and find_knot_span of knot.py) return i with p <= i <= n and U[i] <= u < U[i+1] for U[p] <= u < U[n+1], return n at the upper end, and terminate for every such parameter. The tolerance and bspline_utils searches are a property of their own.", "quantifier": "all non-decreasing knot vectors with U[n] < U[n+1], all degrees, all in-range parameters", "why_tests_cant": "binary search over arbitrary multiplicities; termination", "anchors": ["mmcore/geom/nurbs.pxd: find_span_inline", "mmcore/geom/nurbs.pyx: find_span", "mmcore/geom/curves/knot.py: find_span_linear, find_spans, find_knot_span"]}
{"id": "C34", "title": "B-spline basis functions are a non-negative partition of unity", "statement": "On the span returned for u, basis_funs gives p+1 values that are >= 0 and sum to 1, and they equal the Cox-de Boor basis functions N_{span-p..span,p}(u).", "quantifier": "all degrees, non-decreasing knot vectors, parameters", "why_tests_cant": "every degree and knot multiplicity pattern; continuum of parameters", "anchors": ["mmcore/geom/nurbs.pxd: basis_funs", "mmcore/geom/curves/knot.py: basis_function"]}
{"id": "C35", "title": "A NURBS curve lies in the bounding box of its control points", "statement": "For positive weights every evaluated point is a convex combination of the p+1 control points of its span; hence it lies inside curve.bbox().", "quantifier": "all curves with positive weights, all in-range parameters", "why_tests_cant": "continuum of parameters", "anchors": ["mmcore/geom/nurbs.pxd: curve_point", "mmcore/geom/nurbs.pyx: NURBSCurve.cevaluate, bbox"]}
{"id": "C36", "title": "A clamped curve starts and ends at its end control points", "statement": "For a clamped knot vector the curve evaluated at the ends of its interval equals the first and last control point.", "quantifier": "all clamped curves of every degree", "why_tests_cant": "every degree and knot vector", "anchors": ["mmcore/geom/nurbs.pxd: curve_point", "mmcore/geom/nurbs.pyx: NURBSCurve.start, end"]}
{"id": "C37", "title": "Knot insertion keeps the curve", "statement": "Inserting a knot num times (multiplicity staying <= degree) into a curve with one common weight keeps the curve unchanged at every parameter; for any curve it keeps the knot vector sorted, adds exactly num copies of the knot and num control points and keeps the B-spline function of every column of the control point array.", "quantifier": "all curves, knots, insertion counts and parameters", "why_tests_cant": "continuum of parameters; every degree and multiplicity", "anchors": ["mmcore/geom/nurbs.pyx: knot_insertion, knot_insertion_kv, NURBSCurve.insert_knot"]}
{"id": "C38", "title": "Serialization round trip", "statement": "NURBSCurve.deserialize(curve.serialize()) has the same control points, degree, knots and periodic flag, and a buffer with another magic or version is rejected.", "quantifier": "all curves", "why_tests_cant": "all sizes and all bit patterns of the stored numbers", "anchors": ["mmcore/geom/nurbs.pyx: NURBSCurve.cserialize, cdeserialize"]}
{"id": "C39", "title": "Cached evaluation is never stale", "statement": "curve.evaluate(t) always equals the point defined by the curve's current control points, weights, degree and knots, whatever sequence of setters, evaluations and copies went before.", "quantifier": "all finite histories of mutations, copies and evaluations over any number of curve objects", "why_tests_cant": "needs every interleaving of cache fills and mutators", "anchors": ["mmcore/geom/nurbs.pyx: NURBSCurve.evaluate, _evaluate_cached, copy, set_degree, degree, knots, set, insert_knot, normalize_knots, __setstate__"]}
{"id": "C40", "title": "Reversing a curve", "statement": "reverse_curve(c) evaluates at a+b-t to c(t) on its interval [a,b]; its knots are sorted and reversing twice gives back the curve.", "quantifier": "all curves and parameters", "why_tests_cant": "continuum of parameters", "anchors": ["mmcore/geom/nurbs.pyx: reverse_curve"]}
{"id": "C41", "title": "Normalising knots", "statement": "normalize_knots maps the knot vector affinely onto [0,1], keeps it sorted with the same multiplicities and keeps the shape: the new curve at (t-a)/(b-a) is the old curve at t.", "quantifier": "all curves and parameters", "why_tests_cant": "continuum of parameters", "anchors": ["mmcore/geom/nurbs.pyx: NURBSCurve.normalize_knots, cnormalize_knots"]}
{"id": "C42", "title": "Generated knot vectors are valid", "statement": "The knot vectors generated for n control points and degree p (clamped, unclamped, averaged) have n+p+1 entries, are non-decreasing, and the clamped ones repeat each end p+1 times.", "quantifier": "all n > p >= 1", "why_tests_cant": "every n and p", "anchors": ["mmcore/geom/nurbs.pyx: NURBSCurve.generate_knots", "mmcore/geom/curves/knot.py: generate_knot, compute_knot_vector"]}
{"id": "C43", "title": "Implicit boolean operations are set operations", "statement": "A point is strictly inside the union (intersection, difference A-B, xor, complement) of two implicit shapes exactly when it is strictly inside the corresponding combination, and the reported bounds of a combination contain all its points when the operands' bounds do.", "quantifier": "all implicit functions and points, all operator trees", "why_tests_cant": "functions and points range over infinite sets", "anchors": ["mmcore/geom/implicit/implicit.py: op_union, op_intersection, op_subtraction, op_xor, op_inv, Union2D, Intersection2D, Sub2D, Sub3D"]}
{"id": "C44", "title": "Implicit quad/octree tiles its box", "statement": "The full, empty and border cells reported by the tree tile the bounding box: every point of the box is in some cell, and cells have disjoint interiors; a cell is reported full (empty) only if all sampled corners of all its finest cells are negative (non-negative); every finest cell with a sign change is a border cell.", "quantifier": "all shapes, depths, boxes and points", "why_tests_cant": "all shapes and depths", "anchors": ["mmcore/geom/implicit/tree/collapse2d.py: build_tree2d, collapse2d", "mmcore/geom/implicit/tree/tree2d.py: ImplicitTree2D.build_node", "mmcore/geom/implicit/tree/collapse3d.py: collapse3d", "mmcore/geom/implicit/tree/tree3d.py"]}
{"id": "C45", "title": "Accelerated point-in-polygon agrees with the plain scan", "statement": "is_point_in_polygon_bvh(poly, q) equals is_point_in_polygon(q, poly).", "quantifier": "all polygons with at least one vertex and all points", "why_tests_cant": "two different algorithms over all inputs", "anchors": ["mmcore/geom/polygon.py: is_point_in_polygon, is_point_in_polygon_bvh, polygon_build_bvh"]}
{"id": "C46", "title": "Point-in-polygon does not depend on the starting vertex or orientation", "statement": "Rotating or reversing the vertex list does not change is_point_in_polygon.", "quantifier": "all polygons and points", "why_tests_cant": "all polygons, points, rotations", "anchors": ["mmcore/geom/polygon.py: is_point_in_polygon"]}
{"id": "C47", "title": "STEP argument lists parse to the value that was printed", "statement": "parse_arguments applied to the textual form of a nested argument tuple returns that tuple, with the order of arguments kept.", "quantifier": "all nested argument tuples", "why_tests_cant": "unbounded nesting and token contents", "anchors": ["mmcore/compat/step/step_writer.py: parse_arguments, process_token"]}
{"id": "C48", "title": "Knot multiplicities summarise the knot vector", "statement": "get_knot_multiplicities returns two lists of equal length with positive counts summing to the number of knots; expanding them reproduces the knot vector up to the 1e-8 tolerance, exactly if no two knots are closer than the tolerance without being equal.", "quantifier": "all knot lists", "why_tests_cant": "all lists, including chains of close knots", "anchors": ["mmcore/compat/step/step_writer.py: get_knot_multiplicities"]}
{"id": "C49", "title": "STEP references are unique and never dangle", "statement": "In any sequence of add_* calls every entity gets a fresh reference, and every reference stored inside an entity points to an entity added before it.", "quantifier": "all finite histories of add_* calls whose reference arguments come from earlier results", "why_tests_cant": "all histories", "anchors": ["mmcore/compat/step/step_writer.py: StepWriter.add_entity, next_ref, add_vertex_point, add_edge_curve, add_edge_loop, add_nurbs_curve"]}
{"id": "C50", "title": "Greville abscissae", "statement": "greville_abscissae returns one parameter per control point, non-decreasing and inside the parameter domain; for degree-p curves the curve with control values equal to the abscissae is the identity.", "quantifier": "all knot vectors and degrees", "why_tests_cant": "every degree and knot vector", "anchors": ["mmcore/geom/nurbs.pyx: greville_abscissae"]}
{"id": "C51", "title": "Splitting a curve keeps both halves", "statement": "split_curve(c,t) of a curve with one common weight returns two curves on [a,t] and [t,b] that agree with c on their intervals; with normalize_knots=True both live on [0,1] and agree after the affine change of parameter.", "quantifier": "all curves with equal weights (clamped or not), all interior split parameters, all evaluation parameters", "why_tests_cant": "continuum of parameters", "anchors": ["mmcore/geom/nurbs.pyx: split_curve"]}
{"id": "C52", "title": "Union by rank keeps find shallow", "statement": "After any history of union/find on n elements a call find(x) makes at most floor(log2 n)+1 nested calls, so Python's recursion limit (1000) is never reached.", "quantifier": "all n, all histories, all x < n", "why_tests_cant": "the bound is over all histories; tests only see the depths of the histories they run", "anchors": ["mmcore/ds/union_find.py: UnionFind.find, union"]}
{"id": "C53", "title": "AVL append never drops a value", "statement": "Calling append(v) adds v to the tree and keeps the values appended before, so n appends hold n values.", "quantifier": "all finite runs of append on an empty tree", "why_tests_cant": "the key chosen depends on the tree height, which stops growing with every call", "anchors": ["mmcore/ds/tree/avl.py: AVL.append, insert"]}
{"id": "C54", "title": "Replacing a node keeps the ring", "statement": "replace_node(i,node) puts node at position i, keeps the other items and keeps previous the inverse of next, so that later operations still work.", "quantifier": "all ring states and in-range indices", "why_tests_cant": "aliasing of the previous pointers only shows in later operations", "anchors": ["mmcore/ds/cdll/cdll.py: CDLL.replace_node"]}
{"id": "C55", "title": "Iterating an empty circular list yields nothing", "statement": "list(CDLL()) is the empty list, as for any emptied list.", "quantifier": "every history that empties the list", "why_tests_cant": "property of all emptied states", "anchors": ["mmcore/ds/cdll/cdll.py: CDLL.__iter__"]}
{"id": "C56", "title": "index and negative indexing on the circular list", "statement": "index(d) is the position of the first stored item equal to d (None if absent); get(-k) for 1<=k<=len is get(len-k); an index below -len raises.", "quantifier": "all histories, all values and indices", "why_tests_cant": "all histories", "anchors": ["mmcore/ds/cdll/cdll.py: CDLL.index, get"]}
{"id": "C57", "title": "Evaluation returns the NURBS point", "statement": "evaluate(t) returns sum_i N_i,p(t) w_i P_i / sum_i N_i,p(t) w_i with the Cox-de Boor basis functions N_i,p; evaluating an array of parameters returns the same points in order.", "quantifier": "all knot vectors, degrees, positive weights, parameters of the domain", "why_tests_cant": "all degrees and knot multiplicities at once", "anchors": ["mmcore/geom/nurbs.pxd: curve_point", "mmcore/geom/nurbs.pyx: NURBSCurve.evaluate, evaluate_multi"]}
{"id": "C58", "title": "Evaluation is defined on the whole interval", "statement": "evaluate(t) returns a point for every t of curve.interval().", "quantifier": "all curves with positive weights, all parameters of the interval", "why_tests_cant": "non-termination cannot be observed by a finite test", "anchors": ["mmcore/geom/nurbs.pxd: find_span_inline, curve_point", "mmcore/geom/nurbs.pyx: NURBSCurve.interval"]}
{"id": "C59", "title": "make_periodic closes the curve", "statement": "After make_periodic the curve is valid, flagged periodic and its values at both ends of its domain agree.", "quantifier": "all curves of degree >= 1 with at least `degree` control points and positive weights", "why_tests_cant": "all degrees and control polygons", "anchors": ["mmcore/geom/nurbs.pyx: NURBSCurve.make_periodic, is_periodic, generate_knots_periodic"]}
{"id": "C60", "title": "A periodic curve repeats", "statement": "A periodic curve evaluated at t and at t plus its period gives the same point.", "quantifier": "all periodic curves and parameters", "why_tests_cant": "all parameters", "anchors": ["mmcore/geom/nurbs.pxd: find_span_inline, curve_point"]}
{"id": "C61", "title": "Knot insertion keeps a rational curve", "statement": "Inserting a knot into a curve with different weights keeps the curve unchanged at every parameter.", "quantifier": "all rational curves, knots and parameters", "why_tests_cant": "continuum of parameters and weights", "anchors": ["mmcore/geom/nurbs.pyx: knot_insertion, NURBSCurve.insert_knot"]}
{"id": "C62", "title": "multiply_knot raises a knot to full multiplicity", "statement": "multiply_knot(t) makes t occur exactly degree times, returns how many copies were inserted and keeps the curve.", "quantifier": "all curves and knots", "why_tests_cant": "every degree, multiplicity and parameter", "anchors": ["mmcore/geom/nurbs.pyx: NURBSCurve.multiply_knot"]}
{"id": "C63", "title": "Greville abscissae stay current", "statement": "After insert_knot the stored Greville abscissae are those of the new knot vector.", "quantifier": "all curves and knots", "why_tests_cant": "needs every curve", "anchors": ["mmcore/geom/nurbs.pyx: NURBSCurve.insert_knot, greville_abscissae"]}
{"id": "C64", "title": "Flipping a curve", "statement": "NURBSCurve.flip gives a valid curve running the other way: sorted knots, value at a+b-t equal to the old value at t.", "quantifier": "all curves", "why_tests_cant": "continuum of parameters", "anchors": ["mmcore/geom/nurbs.pyx: NURBSCurve.flip"]}
{"id": "C65", "title": "Splitting a rational curve", "statement": "split_curve of a curve with different weights returns two curves that agree with it on their intervals.", "quantifier": "all rational curves, split parameters", "why_tests_cant": "continuum of parameters and weights", "anchors": ["mmcore/geom/nurbs.pyx: split_curve"]}
{"id": "C66", "title": "k-d tree depth stays logarithmic", "statement": "After building from any point list and any history of insertions and deletions, each node's recorded size is its number of points and the height h of a non-empty tree with n points satisfies (10/7)^(h-1) <= n.", "quantifier": "all point lists of one dimension and all histories of insert/delete with that dimension", "why_tests_cant": "rebuilding decisions depend on the whole history", "anchors": ["mmcore/ds/bkdtree.py: BalancedKDTree.insert, delete, _is_unbalanced, _rebalance_subtree, _update_size"]}
{"id": "C67", "title": "k-d tree nearest neighbour after deletion", "statement": "nearest_neighbor(q) is a closest stored point on every tree reached by build, insert and delete.", "quantifier": "all histories and queries", "why_tests_cant": "deletion rewrites inner nodes; only an invariant over all histories tells whether pruning stays right", "anchors": ["mmcore/ds/bkdtree.py: BalancedKDTree._delete_rec, nearest_neighbor"]}
{"id": "C68", "title": "k-d tree constructor leaves its argument alone", "statement": "Constructing a tree from a list does not change the list.", "quantifier": "all point lists", "why_tests_cant": "an aliasing effect, invisible when the list is already sorted", "anchors": ["mmcore/ds/bkdtree.py: _build_balanced (points.sort), BalancedKDTree.__init__"]}
{"id": "C69", "title": "Comparing an interval with a number is sound", "statement": "X < c (X > c) is reported exactly when every member of X is below (above) c.", "quantifier": "all intervals and numbers", "why_tests_cant": "continuum of members", "anchors": ["mmcore/numeric/interval/_interval.py: Interval.compare, __lt__, __gt__"]}
{"id": "C70", "title": "Subdivision tiles the interval and evaluation sweeps it", "statement": "subdivide(n) gives 2^n intervals of equal width whose union is X; evaluate maps [0,1] onto X with the bounds at 0 and 1; float(X) is the midpoint.", "quantifier": "all intervals, all n, all parameters", "why_tests_cant": "unbounded number of steps, continuum of members", "anchors": ["mmcore/numeric/interval/_interval.py: Interval.subdivide, _subdivide_step, evaluate, __float__"]}
{"id": "C71", "title": "Interval reciprocal encloses the reciprocals", "statement": "When ~X is a finite interval, X does not contain 0 and 1/x lies in ~X for every x in X; a zero bound raises ZeroDivisionError, a zero strictly inside gives the whole line; division by an interval with a zero bound raises.", "quantifier": "all intervals and members", "why_tests_cant": "continuum of members, sign patterns", "anchors": ["mmcore/numeric/interval/_interval.py: Interval.__invert__, __truediv__"]}
{"id": "C72", "title": "Quotient by an interval containing zero encloses all quotients", "statement": "If 0 lies strictly inside Y then X/Y contains x/y for every x in X and every non-zero y in Y.", "quantifier": "all X and all Y with zero strictly inside", "why_tests_cant": "continuum of members", "anchors": ["mmcore/numeric/interval/_interval.py: Interval.__truediv__"]}
{"id": "C73", "title": "Interval max/min return a maximal/minimal argument", "statement": "Interval.max(args) is one of its arguments and no argument lies entirely above it; dually for min.", "quantifier": "all non-empty argument lists", "why_tests_cant": "unbounded lists", "anchors": ["mmcore/numeric/interval/_interval.py: Interval.max, min"]}
{"id": "C74", "title": "Tuple round trip of an interval", "statement": "Interval.from_tuple(X.to_tuple()) is X.", "quantifier": "all intervals", "why_tests_cant": "all intervals", "anchors": ["mmcore/numeric/interval/_interval.py: Interval.from_tuple, to_tuple"]}
{"id": "C75", "title": "Bounding box without an output array has the dimension of the points", "statement": "aabb(P) for points with K columns returns a 2 x K box for every K.", "quantifier": "all K, all non-empty point sets", "why_tests_cant": "every dimension", "anchors": ["mmcore/numeric/_aabb.pyx: aabb, caabb"]}
{"id": "C76", "title": "Clipping of very short segments is exact", "statement": "segment_aabb_intersect is exact also when an extent of the segment is non-zero and below 1e-15.", "quantifier": "all boxes, all positions of the segment on a face, all lengths below 1e-15", "why_tests_cant": "absolute tolerance below test data scale", "anchors": ["mmcore/numeric/_aabb.pyx: _segment_aabb_intersect"]}
{"id": "C77", "title": "Ray/box query gives the first hit", "statement": "ray_aabb_intersect reports a hit exactly when the ray meets the box (parameter up to 1e300), its first number is the least non-negative parameter in the box, and the two numbers bound exactly the hit parameters within [0,1].", "quantifier": "all boxes, origins and directions without components in (0,1e-15)", "why_tests_cant": "continuum of parameters", "anchors": ["mmcore/numeric/_aabb.pyx: ray_aabb_intersect, _ray_aabb_intersect"]}
{"id": "C78", "title": "Ray/box query returns an ordered parameter interval", "statement": "The pair returned by ray_aabb_intersect is ordered (entry before exit).", "quantifier": "all boxes and rays hit beyond parameter 1", "why_tests_cant": "continuum of rays", "anchors": ["mmcore/numeric/_aabb.pyx: ray_aabb_intersect"]}
{"id": "C79", "title": "Unique with a tolerance represents every value", "statement": "After removing duplicates with a tolerance, every input value is within the tolerance of a kept value and kept values are further apart than the tolerance.", "quantifier": "all arrays, all positive tolerances", "why_tests_cant": "only chains of close values show the difference", "anchors": ["mmcore/numeric/algorithms/_unique.c: uniqueSortedEps"]}
{"id": "C80", "title": "Unique leaves its argument alone", "statement": "Calling unique does not change the array passed to it.", "quantifier": "all arrays", "why_tests_cant": "a test has to look at the argument after the call", "anchors": ["mmcore/numeric/algorithms/quicksort.pyx: unique", "mmcore/numeric/algorithms/_unique.c: uniqueSortedByRef"]}
{"id": "C81", "title": "Every degree can be elevated and converted", "statement": "Degree elevation and conversion to monomial form work for curves and patches of any degree.", "quantifier": "all degrees and elevations", "why_tests_cant": "tests use low degrees", "anchors": ["mmcore/geom/curves/knot.py: degree_elevation_bez", "mmcore/numeric/monomial.py: bezier_to_monomial", "mmcore/numeric/binom.pyx: binomial_coefficient_py"]}
{"id": "C82", "title": "Monomial cross product", "statement": "Evaluating the cross product of two monomial patches equals the cross product of their evaluations.", "quantifier": "all patches of any size, all parameters", "why_tests_cant": "continuum of parameters; every size", "anchors": ["mmcore/numeric/monomial.py: cross_product_monomial"]}
{"id": "C83", "title": "Monomial partial derivatives", "statement": "The two arrays returned are the partial derivatives of the patch: evaluating them gives the derivative in u and in v.", "quantifier": "all patches of any size, all parameters", "why_tests_cant": "a derivative is a limit", "anchors": ["mmcore/numeric/monomial.py: monomial_partial_derivatives"]}
{"id": "C84", "title": "Monomial normal field", "statement": "Evaluating the normal patch at (u, v) gives the cross product of the two partial derivatives of the patch there.", "quantifier": "all patches, all parameters", "why_tests_cant": "a derivative is a limit", "anchors": ["mmcore/numeric/monomial.py: normal_vector_monomial"]}
{"id": "C85", "title": "Monomial2D to Bezier and back keeps the surface", "statement": "The NURBS patch made from a Monomial2D evaluates to the same surface, and so does the Monomial2D made from a Bezier patch.", "quantifier": "all patches and parameters", "why_tests_cant": "continuum of parameters", "anchors": ["mmcore/numeric/monomial.py: Monomial2D.to_bezier, Monomial2D.from_bezier"]}
{"id": "C86", "title": "Homogeneous monomials become rational Bezier patches", "statement": "The rational patch made from homogeneous monomial coefficients evaluates to the projection of the homogeneous polynomial wherever its weight is not zero.", "quantifier": "all homogeneous patches whose Bezier weights are nonzero, all parameters", "why_tests_cant": "continuum of parameters", "anchors": ["mmcore/numeric/monomial.py: homogeneous_monomial_to_rational_bezier, evaluate_rational_bezier_patch"]}
{"id": "C87", "title": "Two-variable search finds the bottom of a bowl", "statement": "divide_and_conquer_min_2d stops for every function and returns a point of the box; when moving either coordinate closer to a point of the box always lowers the function, the result is within half the tolerance of that point in both coordinates.", "quantifier": "all functions, boxes, tolerances > 0", "why_tests_cant": "functions range over an infinite space", "anchors": ["mmcore/numeric/divide_and_conquer.py: divide_and_conquer_min_2d"]}
{"id": "C88", "title": "Two-variable search on separable valleys", "statement": "divide_and_conquer_min_2d finds, to tolerance, the minimum of a sum of a strict valley in x and a strict valley in y.", "quantifier": "all separable valleys, all tolerances", "why_tests_cant": "steep sides make the minimum leave the window only for particular shapes", "anchors": ["mmcore/numeric/divide_and_conquer.py: divide_and_conquer_min_2d"]}
{"id": "C89", "title": "Three-variable search finds the minimum of a quadratic", "statement": "divide_and_conquer_min_3d returns a point of the box for every function, and for a sum of squares of distances to a point of the box it returns that point to tolerance.", "quantifier": "all functions, boxes, tolerances", "why_tests_cant": "eight of the 27 grid points are never looked at", "anchors": ["mmcore/numeric/divide_and_conquer.py: divide_and_conquer_min_3d"]}
{"id": "C90", "title": "n-variable search can reach every point", "statement": "divide_and_conquer_min_nd returns a point of the box for every function, and finds to tolerance the minimum of a function with a single valley.", "quantifier": "all functions, dimensions, boxes, tolerances", "why_tests_cant": "needs all functions and all dimensions", "anchors": ["mmcore/numeric/divide_and_conquer.py: divide_and_conquer_min_nd"]}
{"id": "C91", "title": "Scan reports exactly the sign changes between samples", "statement": "bisection1d samples start, start+step, ... up to stop; it reports, each once and with its value, exactly the samples that are zero or that differ from the sample before in being positive, and the smallest sampled value.", "quantifier": "all functions, steps > 0, intervals", "why_tests_cant": "sample count is unbounded", "anchors": ["mmcore/numeric/bisection.py: bisection1d"]}
{"id": "C92", "title": "Scan reports a root once", "statement": "When the function is zero exactly at one sample and changes sign only there, bisection1d reports one root.", "quantifier": "all functions with a root on a sample", "why_tests_cant": "needs a root that falls exactly on a sample", "anchors": ["mmcore/numeric/bisection.py: bisection1d"]}
{"id": "C93", "title": "Bisection in the plane ends near a zero", "statement": "bisection_2d returns None when the two diagonal corners have the same sign; otherwise it stops inside the box, near a zero of the function.", "quantifier": "all functions, boxes, tolerances > 0", "why_tests_cant": "functions range over an infinite space", "anchors": ["mmcore/numeric/bisection.py: bisection_2d"]}
{"id": "C94", "title": "Sampling minimiser answers for every function", "statement": "scalar_min_1d stops and returns a parameter of the interval for every function, also when the smallest sample is the last one.", "quantifier": "all functions, intervals, steps > 0, at least four samples", "why_tests_cant": "the failing case is a function that decreases up to the end", "anchors": ["mmcore/numeric/bisection.py: scalar_min_1d"]}
{"id": "C95", "title": "R*-tree stores every rectangle in nodes of bounded size", "statement": "For limits 1 <= min_children, 2*min_children <= max_children+1 and max_children >= 2 no insertion fails, the stored rectangles are exactly the inserted ones with multiplicity, every node other than the root has between min_children and max_children children, and an inner root has between two and max_children.", "quantifier": "all insertion histories, all limits", "why_tests_cant": "split choices depend on the coordinates of all children", "anchors": ["mmcore/ds/tree/rtree.py: RStarTree.insert, _split_node, _choose_split_axis, _compute_margin"]}
{"id": "C96", "title": "R*-tree is balanced", "statement": "After any history of insertions all leaves have the same depth.", "quantifier": "all insertion histories", "why_tests_cant": "the defect needs a tree of three levels", "anchors": ["mmcore/ds/tree/rtree.py: RStarTree._split_node, _find_parent"]}
{"id": "C97", "title": "R*-tree accepts its parameters", "statement": "Insertion works for every pair of limits the constructor accepts.", "quantifier": "all limits, all histories", "why_tests_cant": "parameters are rarely varied", "anchors": ["mmcore/ds/tree/rtree.py: RStarTree.__init__, _split_node"]}
{"id": "C98", "title": "BVH point query is exact", "statement": "contains_point(root, p) returns exactly the stored objects whose box contains p, each once; traverse_bvh_point returns a node such that every stored object whose box contains p is below it, or nothing when p is outside the root box; listing functions give every leaf and every box.", "quantifier": "all built trees and points", "why_tests_cant": "pruning correctness over arbitrary trees", "anchors": ["mmcore/geom/bvh/__init__.py: contains_point, traverse_bvh_point, traverse_leafs, traverse_all_bbox"]}
{"id": "C99", "title": "Second BVH point query returns each object once", "statement": "contains_point2(root, p) returns stored objects only, each once.", "quantifier": "all built trees and points", "why_tests_cant": "the single-leaf tree and the empty hit are corner cases", "anchors": ["mmcore/geom/bvh/__init__.py: traverse_bvh2, contains_point2"]}
{"id": "C100", "title": "Nearest box among those holding the point", "statement": "find_closest(root, p, breadth=False) returns, among leaves whose box contains p, exactly those with the smallest signed distance, and None when no leaf box contains p.", "quantifier": "all built trees with at least two leaves, all points", "why_tests_cant": "ties and overlapping boxes", "anchors": ["mmcore/geom/bvh/__init__.py: _find_closest_vicinity, find_closest, sd_aabb"]}
{"id": "C101", "title": "find_closest returns the nearest boxes", "statement": "find_closest(root, p) returns exactly the leaves whose box has the smallest signed distance to p.", "quantifier": "all built trees and points", "why_tests_cant": "greedy descent fails only for some arrangements", "anchors": ["mmcore/geom/bvh/__init__.py: _find_closest_breadth, find_closest"]}
{"id": "C102", "title": "BVH segment query is exact", "statement": "bvh_segment_intersection(root, s) reports exactly the stored objects whose box has a point of the segment, each once, with the whole segment.", "quantifier": "all built trees (one object per leaf), all segments whose direction components are zero or at least 1e-15 in size", "why_tests_cant": "clipping and pruning over arbitrary trees", "anchors": ["mmcore/geom/bvh/__init__.py: bvh_segment_intersection", "mmcore/numeric/_aabb.pyx: segment_aabb_clip"]}
{"id": "C103", "title": "Corners, edges and faces of a box", "statement": "get_corners lists exactly the 8 corners, get_edges exactly the 12 edges, get_faces the 6 sides with their corners in cyclic order.", "quantifier": "all boxes with min <= max", "why_tests_cant": "flat boxes, all index combinations", "anchors": ["mmcore/geom/bvh/__init__.py: get_aabb_corners_numpy, BoundingBox.get_corners, get_edges, get_faces"]}
{"id": "C104", "title": "Box merge, intersection and tests", "statement": "merge is the least box containing both; intersection is the common part or None when there is none; intersect tells whether two boxes share a point; intersect_disjoint whether their interiors do; contains_point is membership.", "quantifier": "all boxes straight from the constructor", "why_tests_cant": "touching and flat boxes", "anchors": ["mmcore/geom/bvh/__init__.py: BoundingBox.merge, intersection, intersect, intersect_disjoint, contains_point"]}
{"id": "C105", "title": "Expanding a box updates it", "statement": "After a.expand(b) box a contains both boxes, and its overlap test and volume are those of the enlarged box.", "quantifier": "all boxes", "why_tests_cant": "state kept twice", "anchors": ["mmcore/geom/bvh/__init__.py: BoundingBox.expand, intersect, volume"]}
{"id": "C106", "title": "Evaluating a box at fractions", "statement": "BoundingBox.evaluate((u,v,w)) is the point at those fractions between min and max.", "quantifier": "all boxes and fractions", "why_tests_cant": "boxes away from the origin", "anchors": ["mmcore/geom/bvh/__init__.py: BoundingBox.evaluate"]}
{"id": "C107", "title": "Building a BVH leaves the argument alone", "statement": "build_bvh(objects) does not change the caller's list.", "quantifier": "all object lists", "why_tests_cant": "in-place sort", "anchors": ["mmcore/geom/bvh/__init__.py: build_bvh, split_objects"]}
{"id": "C108", "title": "Cell trees over explicit bounds", "statement": "An ImplicitTree2D given explicit bounds reports cells that lie in those bounds, whatever the bounds of the shape.", "quantifier": "all shapes, bounds and depths", "why_tests_cant": "all bounds and depths", "anchors": ["mmcore/geom/implicit/tree/tree2d.py: ImplicitTree2D.build", "mmcore/geom/implicit/tree/tree2d.py: ImplicitTree2D.build_node"]}
{"id": "C109", "title": "A 2D shape gives access to its cell tree", "statement": "The tree attribute of a two-dimensional implicit shape reports the cells of the shape over its bounds, at once or after build().", "quantifier": "all shapes and depths", "why_tests_cant": "all shapes", "anchors": ["mmcore/geom/implicit/implicit.py: Implicit2D.build_tree, Implicit.tree", "mmcore/geom/implicit/tree/tree2d.py: ImplicitTree2D.build"]}
{"id": "C110", "title": "Rebuilding a cell tree is idempotent and forgets earlier builds", "statement": "Calling build() again without a depth reports the same cells, and build(d) after any earlier build reports the same cells as build(d) on the tree before that build.", "quantifier": "all trees and depth sequences", "why_tests_cant": "all histories of builds", "anchors": ["mmcore/geom/implicit/tree/tree2d.py: ImplicitTree2D.build, clear"]}
{"id": "C111", "title": "Membership of a point in an implicit shape", "statement": "point_inside is true exactly when the implicit function is at most 1e-8 at the point.", "quantifier": "all shapes and points", "why_tests_cant": "real-valued threshold", "anchors": ["mmcore/geom/implicit/implicit.py: Implicit2D.point_inside"]}
{"id": "C112", "title": "Finite-difference gradient is exact on quadratics", "statement": "For a shape whose implicit function is a polynomial of degree at most two, gradient returns the exact (not normalised) gradient at every point, and tangent is perpendicular to gradient for every shape.", "quantifier": "all quadratic polynomials and points; all shapes for the tangent", "why_tests_cant": "infinitely many polynomials and points", "anchors": ["mmcore/geom/implicit/implicit.py: Implicit2D.gradient, tangent, tangent2d"]}
{"id": "C113", "title": "Projection on a straight implicit curve", "statement": "point_on_curve maps a point to a point of the curve when the implicit function is affine.", "quantifier": "all affine functions with non-zero gradient, all points", "why_tests_cant": "infinitely many functions and points", "anchors": ["mmcore/geom/implicit/implicit.py: Implicit.point_on_curve, Implicit2D.gradient"]}
{"id": "C114", "title": "Point in polygon follows the even-odd rule", "statement": "is_point_in_polygon(q, poly) answers True exactly when q is inside an odd number of the triangles that the polygon is the sum of (first vertex with each later edge).", "quantifier": "all polygons with at least one vertex, possibly non-convex or self-crossing, and all points on no line through two vertices of such a triangle", "why_tests_cant": "all polygons and points", "anchors": ["mmcore/geom/polygon.py: is_point_in_polygon"]}
{"id": "C115", "title": "Polygon area is the absolute signed area and behaves like an area", "statement": "area(poly) is half the absolute sum of signed triangle areas; it is unchanged by the choice of starting vertex, direction and translation, and a linear map multiplies it by the absolute value of its determinant.", "quantifier": "all non-empty polygons, translations and 2x2 matrices", "why_tests_cant": "all polygons and matrices", "anchors": ["mmcore/geom/polygon.py: area, polygon_area, to_polygon_area"]}
{"id": "C116", "title": "The crossing of two edges is found exactly when they cross properly", "statement": "intersect(s1, s2, c1, c2) returns a point exactly when the end points of each segment lie strictly on opposite sides of the other; the point and both parameters are then the crossing.", "quantifier": "all pairs of segments", "why_tests_cant": "all segments, including near-degenerate ones", "anchors": ["mmcore/geom/polygon.py: Polygon clip helper intersect"]}
{"id": "C117", "title": "Clipping against a convex polygon is sound and keeps what is inside", "statement": "Every vertex of clip(subject, clipper) is in the convex hull of the subject and on the inner side of every edge of the clipper; a subject strictly inside is returned unchanged; every point of the subject's boundary strictly inside the clipper is on an edge of the result; the only exception is IndexError.", "quantifier": "all subjects and clippers", "why_tests_cant": "all polygons", "anchors": ["mmcore/geom/polygon.py: clip (Sutherland-Hodgman)"]}
{"id": "C118", "title": "Clipping a polygon that lies outside gives an empty result", "statement": "When the subject lies wholly on the outer side of an edge of the clipper, clip returns an empty polygon.", "quantifier": "all subjects and clippers", "why_tests_cant": "all polygons", "anchors": ["mmcore/geom/polygon.py: clip (Sutherland-Hodgman)"]}
{"id": "C119", "title": "Boolean operations on polygons end and invent no vertices", "statement": "union, intersection and difference return a non-empty list of polygons; every vertex in it is a vertex of one of the operands or a point where their outlines cross; when the outlines cross, every returned polygon has at least two vertices.", "quantifier": "all pairs of non-empty polygons, all three operations", "why_tests_cant": "traversal over all crossing patterns", "anchors": ["mmcore/geom/polygon.py: Polygon.clip, union, intersection, difference"]}
{"id": "C120", "title": "Boolean operations on polygons that do not cross", "statement": "For polygons whose outlines do not cross, union returns both when they are apart and the outer one when nested, intersection returns nothing or the inner one, difference the remainder.", "quantifier": "all pairs of non-crossing polygons", "why_tests_cant": "all polygons", "anchors": ["mmcore/geom/polygon.py: Polygon.clip, union, intersection, difference"]}
{"id": "C121", "title": "The | operator of polygons is the union", "statement": "s | c contains the points of s.", "quantifier": "all polygons", "why_tests_cant": "all polygons", "anchors": ["mmcore/geom/polygon.py: Polygon.__or__"]}
{"id": "C122", "title": "point_in_polygon follows the even-odd rule", "statement": "point_in_polygon(points, q) answers True exactly when q is inside by the even-odd rule.", "quantifier": "all polygons given open or with the first vertex repeated, and all points", "why_tests_cant": "all polygons and points", "anchors": ["mmcore/geom/polygon.py: point_in_polygon, segments_by_loop"]}
{"id": "C123", "title": "Segment intersection test is exact in the plane", "statement": "intersects_segments answers True exactly when the segments cross properly.", "quantifier": "all pairs of segments in a horizontal plane with no end point on the other's line", "why_tests_cant": "all segments", "anchors": ["mmcore/geom/polygon.py: intersects_segments, ccw; mmcore/numeric/aabb.py: aabb_overlap"]}
{"id": "C124", "title": "The convex hull is the convex hull", "statement": "convex_hull2d(points) starts at the lowest, leftmost point, uses only input points, turns strictly left at every vertex, and has every input point on the left of or on every edge.", "quantifier": "all sets of at least three points", "why_tests_cant": "all point sets, including collinear and repeated points", "anchors": ["mmcore/geom/polygon.py: convex_hull2d, orientation, polar_angle"]}
{"id": "C125", "title": "Boolean operations on crossing polygons follow the outlines", "statement": "For two polygons in general position whose outlines cross, union, intersection and difference return closed polygons. Each of their edges runs along an outline edge of one operand through points that are all inside (intersection), all outside (union), or outside for the first operand and inside for the second (difference) the other operand. Every crossing of the two outlines is on one of the polygons.", "quantifier": "all pairs of polygons over the rationals, convex or not, with any number of crossings, no vertex of one on a line of an edge or fan triangle of the other, x below 1e6", "why_tests_cant": "The entry flags depend on a ray test at the first vertex and on the parity of the crossings passed; the walk changes polygon and direction at every crossing. Tests use a few convex pairs with two crossings.", "anchors": ["mmcore/geom/polygon.py:190-206", "mmcore/geom/polygon.py:325-377", "mmcore/geom/polygon.py:402-494"]}
{"id": "C126", "title": "Argument parsing always ends", "statement": "parse_arguments ends on every text, with a tuple or a ValueError, and raises for a parenthesis that is not closed.", "quantifier": "all texts; unclosed parentheses outside quotation marks", "why_tests_cant": "all texts", "anchors": ["mmcore/compat/step/step_writer.py: parse_arguments"]}
{"id": "C127", "title": "A stray closing parenthesis is rejected", "statement": "parse_arguments raises for a closing parenthesis that was not opened.", "quantifier": "all texts", "why_tests_cant": "all texts", "anchors": ["mmcore/compat/step/step_writer.py: parse_arguments"]}
{"id": "C128", "title": "Assignments parse to name and arguments", "statement": "parse_assignment of '#n = NAME(args);' returns the entity name and the parsed arguments, for every entity name.", "quantifier": "all references, names and argument lists", "why_tests_cant": "all names, also those with digits", "anchors": ["mmcore/compat/step/step_writer.py: parse_assignment"]}
{"id": "C129", "title": "Topological entities refer to entities of the right kind", "statement": "In every history the ends of an EDGE_CURVE are VERTEX_POINTs, a VERTEX_POINT refers to a CARTESIAN_POINT and an EDGE_LOOP to ORIENTED_EDGEs.", "quantifier": "all histories that do not build these entities with the raw add_entity", "why_tests_cant": "all histories", "anchors": ["mmcore/compat/step/step_writer.py: add_vertex_point, add_edge_curve, add_edge_loop, typeof"]}
{"id": "C130", "title": "Exported geometry can be read back", "statement": "add_nurbs_curve and add_nurbs_surface leave entities from which degree, control points, knots with multiplicities and end points of the geometry can be read by following references.", "quantifier": "all writers, curves and surfaces with their boundary curves", "why_tests_cant": "all shapes and histories", "anchors": ["mmcore/compat/step/step_writer.py: add_nurbs_curve, add_nurbs_surface, add_b_spline_curve_with_knots"]}
{"id": "C131", "title": "Exported geometry keeps the weights", "statement": "Curves or surfaces with different weights are exported differently.", "quantifier": "all curves and surfaces", "why_tests_cant": "all shapes", "anchors": ["mmcore/compat/step/step_writer.py: add_b_spline_curve_with_knots, add_nurbs_surface"]}
{"id": "C132", "title": "Exported boundary loops are connected", "statement": "In the loop that bounds an exported surface each edge starts at the vertex where the edge before it ends.", "quantifier": "all surfaces whose boundary curves follow each other", "why_tests_cant": "all surfaces", "anchors": ["mmcore/compat/step/step_writer.py: add_nurbs_surface, add_edge_curve"]}
{"id": "C133", "title": "Vertices keep the given name", "statement": "add_vertex_point(pt, name) adds a vertex with this name.", "quantifier": "all points and names", "why_tests_cant": "all points", "anchors": ["mmcore/compat/step/step_writer.py: add_vertex_point"]}
{"id": "C134", "title": "Octree leaves tile the box", "statement": "However an octree is built from a box and a target size, and however many times its leaves are divided further, the boxes of the leaves together are exactly the root box, and no point inside one leaf lies in another.", "quantifier": "all boxes with ordered corners, all target sizes for which construction returns, any number of further divisions", "why_tests_cant": "Tests look at a few boxes with a few target sizes; a wrong corner in one of the division tables leaves a gap only for one combination of long sides.", "anchors": ["mmcore/geom/implicit/tree/octree.py:131-143", "mmcore/geom/implicit/tree/octree.py:123-128", "mmcore/geom/implicit/tree/utils.py:27-76"]}
{"id": "C135", "title": "Octree construction ends at the asked size", "statement": "For a target size that is not negative, building an octree ends and every side of every leaf is at most the target plus half of the fourth decimal. For a negative target it never ends.", "quantifier": "all boxes with ordered corners and all target sizes", "why_tests_cant": "Termination depends on rounding of the sides to four decimals at every level; tests cannot run all depths.", "anchors": ["mmcore/geom/implicit/tree/octree.py:14-27", "mmcore/geom/implicit/tree/octree.py:131-143"]}
{"id": "C136", "title": "Point location in an octree", "statement": "Asking an octree for the node closest to a point returns a leaf that contains the point when the point is in the root box, and nothing otherwise.", "quantifier": "all octrees obtained by building and dividing, all points", "why_tests_cant": "Points on the shared faces of leaves are where lookups fail, and there are infinitely many of them.", "anchors": ["mmcore/geom/implicit/tree/octree.py:108-119", "mmcore/geom/implicit/tree/octree.py:93-98"]}
{"id": "C137", "title": "Octree box predicates are exact", "statement": "The overlap test of a node with a box is true exactly when they share a point; containment tests are true exactly when every point of one is in the other; the point test is true exactly for the points of the box.", "quantifier": "all nodes and boxes with ordered corners", "why_tests_cant": "Touching boxes and degenerate boxes are boundary cases of every axis.", "anchors": ["mmcore/geom/implicit/tree/octree.py:59-98"]}
{"id": "C138", "title": "Further division refines every leaf", "statement": "Dividing an octree keeps its root box and replaces every leaf by eight boxes that tile it and meet at its centre.", "quantifier": "all octrees obtained by building and dividing", "why_tests_cant": "The division acts on all leaves of trees of any depth.", "anchors": ["mmcore/geom/implicit/tree/octree.py:50-57", "mmcore/geom/implicit/tree/octree.py:123-128"]}
{"id": "C139", "title": "Power of two for a size", "statement": "For a positive integer the result is the least power of two that is not below it. For zero and negative integers it is never 1, the least power of two not below them.", "quantifier": "all integers", "why_tests_cant": "The boundary between powers is only sampled by tests.", "anchors": ["mmcore/geom/implicit/tree/utils.py:2-4"]}
{"id": "C140", "title": "Division of a rectangle", "statement": "Dividing a rectangle at a point of it tiles the rectangle; it fails exactly when no side is longer than the target instead of returning no parts.", "quantifier": "all rectangles, division points, sizes and targets", "why_tests_cant": "Each combination of long sides uses its own table of corners.", "anchors": ["mmcore/geom/implicit/tree/utils.py:80-93"]}
{"id": "C141", "title": "Curves are independent objects", "statement": "Calling a method or setter on one curve leaves the control points, weights, knots, degree and interval of every other curve unchanged.", "quantifier": "all histories over any number of curves", "why_tests_cant": "depends on which arrays are shared, over all histories", "anchors": ["mmcore/geom/nurbs.pyx: NURBSCurve.__init__, ccopy, knots, set, normalize_knots, weights"]}
{"id": "C142", "title": "A deep copy equals its original", "statement": "copy.deepcopy(curve) is a new curve with the same control points, weights, knots, degree and interval, and making it leaves the original as it was.", "quantifier": "all histories over any number of curves", "why_tests_cant": "all histories", "anchors": ["mmcore/geom/nurbs.pyx: NURBSCurve.__deepcopy__, ccopy"]}
{"id": "C143", "title": "Serialization is deterministic", "statement": "Serializing one curve twice gives the same bytes.", "quantifier": "all curves", "why_tests_cant": "the differing bytes are uninitialised memory, which a test may happen to see equal", "anchors": ["mmcore/geom/nurbs.pyx: NURBSCurve.cserialize"]}
{"id": "C144", "title": "Truncated data is rejected", "statement": "NURBSCurve.deserialize raises an error for data that ends before the last knot, and never reads outside the data.", "quantifier": "all curves and cuts", "why_tests_cant": "what lies behind a buffer is not under a test's control", "anchors": ["mmcore/geom/nurbs.pyx: NURBSCurve.cdeserialize"]}
{"id": "C145", "title": "Pickling a curve gives back the curve", "statement": "Unpickling a pickled curve (and copy.copy of a curve) gives the same control points, weights, knots, degree, interval and periodic flag.", "quantifier": "all curves", "why_tests_cant": "all curves and knot vectors", "anchors": ["mmcore/geom/nurbs.pyx: NURBSCurve.__reduce__, __init__, make_periodic, is_periodic, control_points"]}
{"id": "C146", "title": "Tolerant and textbook span searches find the span", "statement": "find_span_binsearch and the find_span of bspline_utils return the span containing the parameter for every parameter of the domain, and every span search stops for every parameter.", "quantifier": "all valid knot vectors, parameters", "why_tests_cant": "parameters within a tolerance of the end, and parameters outside the domain", "anchors": ["mmcore/geom/curves/knot.py: find_span_binsearch, find_knot_span", "mmcore/geom/curves/bspline_utils.py: find_span"]}
{"id": "C147", "title": "The basis functions of bspline_utils are the B-spline basis functions", "statement": "calc_basis_functions returns the p+1 Cox-de Boor basis functions of the span, and calc_b_spline_point the B-spline point.", "quantifier": "all degrees, valid knot vectors, spans", "why_tests_cant": "wrong for every degree >= 2, which only a comparison with the definition shows", "anchors": ["mmcore/geom/curves/bspline_utils.py: calc_basis_functions, calc_b_spline_point"]}
{"id": "C148", "title": "The de Boor evaluator computes the NURBS point", "statement": "evaluate_nurbs of deboor.pyx returns the point of the NURBS definition, equal to that of the span based evaluator, inner knots and both ends of the domain included.", "quantifier": "all degrees >= 1, valid knot vectors with inner multiplicity <= degree, positive weights, parameters of the domain", "why_tests_cant": "the recursion doubles all basis values at inner knots; only the division by the weight sum cancels it", "anchors": ["mmcore/geom/curves/deboor.pyx: cdeboor, cevaluate_nurbs, evaluate_nurbs"]}
{"id": "C149", "title": "Evaluating several parameters at once gives the same points", "statement": "evaluate_nurbs_multi returns, for each parameter, what evaluate_nurbs returns for it.", "quantifier": "all curves and parameter lists", "why_tests_cant": "an accumulator left over from one parameter to the next", "anchors": ["mmcore/geom/curves/deboor.pyx: evaluate_nurbs_multi"]}
{"id": "C150", "title": "Normalizing a knot vector keeps the curve", "statement": "normalize_knot maps the knots affinely onto [0, 1], keeps the vector valid, and the curve with the new knots has at the mapped parameter the point of the old curve.", "quantifier": "all valid knot vectors, control points, parameters of the domain", "why_tests_cant": "all knot vectors and parameters", "anchors": ["mmcore/geom/curves/knot.py: normalize_knot"]}
{"id": "C151", "title": "Chord length parameters increase from 0 to 1", "statement": "compute_params_curve returns one parameter per point, strictly increasing from 0 to 1 and proportional to the chord length so far; points without extent raise an error.", "quantifier": "all chord length lists with positive lengths; all-zero lists", "why_tests_cant": "all numbers of points", "anchors": ["mmcore/geom/curves/knot.py: compute_params_curve"]}
{"id": "C152", "title": "The interpolation system characterises curves through the points", "statement": "For distinct consecutive points the interpolation builds a square system whose entries are the basis functions at the parameters, with a positive diagonal, and every exact solution is a curve of the requested degree which takes the data points at the parameters.", "quantifier": "all degrees 1 <= p <= number of points - 1, all positive chord lengths", "why_tests_cant": "all degrees and point counts", "anchors": ["mmcore/geom/curves/knot.py: interpolate_nurbs_curve, build_coeff_matrix, compute_knot_vector, compute_params_curve"]}
{"id": "C153", "title": "Merging knot vectors keeps the larger multiplicity", "statement": "merge_knot_vectors returns a sorted vector in which every knot occurs as often as in the operand that has it more often.", "quantifier": "all pairs of knot vectors", "why_tests_cant": "distinct knots closer than the tolerance", "anchors": ["mmcore/geom/curves/knot.py: merge_knot_vectors"]}
{"id": "C154", "title": "Adjacent duplicates are removed", "statement": "After removing adjacent duplicates no two consecutive points are closer than the tolerance, and points without duplicates are kept.", "quantifier": "all point lists and tolerances", "why_tests_cant": "chains of small steps", "anchors": ["mmcore/geom/curves/knot.py: _remove_adjacent_duplicates"]}
{"id": "C155", "title": "Single basis values are the B-spline basis functions", "statement": "deboor(knots, t, i, k) returns the Cox-de Boor basis function N_{i,k}(t).", "quantifier": "all valid knot vectors, indices, parameters of the domain", "why_tests_cant": "wrong only at the knots themselves", "anchors": ["mmcore/geom/curves/deboor.pyx: cdeboor, deboor"]}
{"id": "C156", "title": "Surface evaluation is the tensor-product NURBS formula", "statement": "For a NURBSSurface with matching arrays, non-decreasing knots and positive weights, evaluating at any (u, v) of the domain returns sum_ij N_i,p(u) N_j,q(v) w_ij P_ij / sum_ij N_i,p(u) N_j,q(v) w_ij, with N the Cox-de Boor basis functions; control_points returns the P_ij.", "quantifier": "all surfaces (degrees, sizes, knots, weights) and all domain parameters", "why_tests_cant": "The formula involves every span, both end points and every weight; tests compare a few sample points against another library.", "anchors": ["mmcore/geom/nurbs.pxd: surface_point", "mmcore/geom/nurbs.pyx: NURBSSurface.evaluate, control_points"]}
{"id": "C157", "title": "Clamped sides interpolate the boundary of the net", "statement": "Where the knots of a direction are clamped, the boundary isocurve of the surface is the rational curve of the first or last row (column) of control points over the knots of the other direction, and a surface clamped in both directions passes through its four corner control points.", "quantifier": "all valid surfaces with positive weights, all parameters along the side", "why_tests_cant": "The end parameters are the special case of the span search; a wrong span there shows only at the very end of the domain.", "anchors": ["mmcore/geom/nurbs.pxd: surface_point, find_span", "mmcore/geom/nurbs.pyx: NURBSSurface"]}
{"id": "C158", "title": "Surface bounding box contains the surface", "statement": "The box returned by NURBSSurface.bbox contains every control point and every point of a surface with positive weights.", "quantifier": "all valid surfaces with positive weights and all domain parameters", "why_tests_cant": "Containment is a statement about a continuum of points.", "anchors": ["mmcore/geom/nurbs.pyx: NURBSSurface.bbox, aabb"]}
{"id": "C159", "title": "Inserting knots in a surface does not change it", "statement": "insert_knot_u / insert_knot_v with count + multiplicity <= degree adds exactly the requested copies of the knot in that direction, adds count rows (columns) of control points, keeps the domain and the other direction, updates the interval, and leaves every surface point unchanged, whatever the newly allocated memory contained.", "quantifier": "all valid surfaces (rational included), all knots of the domain separated from other knots, all counts, all contents of the fresh array", "why_tests_cant": "Each row of the net must be updated consistently; a wrong row or a stale cell only changes points in some spans.", "anchors": ["mmcore/geom/nurbs.pyx: NURBSSurface.insert_knot_u, insert_knot_v, knot_insertion"]}
{"id": "C160", "title": "Splitting a surface", "statement": "split_surface_u and split_surface_v return two surfaces of the same degrees that are exactly the restrictions of the surface to the two sides of the parameter, with the intervals cut at the parameter; a parameter outside the interval or within the tolerance of an end is refused with ValueError.", "quantifier": "all valid surfaces, all inner parameters (knots of multiplicity at most the degree included), all tolerances", "why_tests_cant": "The result must agree with the original at every parameter of both pieces; sample points miss an off-by-one row.", "anchors": ["mmcore/geom/nurbs.pyx: split_surface_u, split_surface_v"]}
{"id": "C161", "title": "Normalising the knots of a surface reparametrises it", "statement": "normalize_knots maps both knot vectors affinely onto [0, 1], sets the interval to ((0,1),(0,1)), keeps the control points and the degrees, and the new surface at the mapped parameters equals the old one.", "quantifier": "all valid surfaces and all domain parameters", "why_tests_cant": "Equality of two parametrised surfaces at all parameters.", "anchors": ["mmcore/geom/nurbs.pyx: NURBSSurface.normalize_knots, cnormalize_knots_u, cnormalize_knots_v"]}
{"id": "C162", "title": "Subdividing a surface at (u, v) gives its four quadrants", "statement": "subdivide_surface(surface, u, v) returns the restrictions of the surface to the four quadrants around (u, v), with normalize_knots only reparametrising each of them onto [0, 1].", "quantifier": "all valid surfaces and all inner (u, v)", "why_tests_cant": "Both cuts must refer to the parameters of the given surface; with [0,1] domains, as in most tests, the error cannot show.", "anchors": ["mmcore/geom/nurbs.pyx: subdivide_surface"]}
{"id": "C163", "title": "Decomposing a surface into Bezier patches", "statement": "For knot vectors with degree+1 copies at the ends, inner multiplicities at most the degree and different knots more than 1e-7 apart, decompose_surface returns patches that are Bezier in the requested directions, one for each pair of consecutive different knots in order, each agreeing with the surface on its domain, together covering the whole domain.", "quantifier": "all such surfaces, decomposition in u, v and uv", "why_tests_cant": "Any number of knots and multiplicities; repeated cuts of the remaining piece must not drift.", "anchors": ["mmcore/geom/nurbs.pyx: decompose_surface, split_surface_u, split_surface_v"]}
{"id": "C164", "title": "The stored interval of a surface is the range of its knots", "statement": "After construction (with generated clamped knots) and after every assignment to knots_u, knots_v or degree, interval() of a surface is ((first, last knot of u), (first, last knot of v)).", "quantifier": "all control nets, degrees and knots", "why_tests_cant": "The interval is a cached field; a stale cache is visible only after a particular order of assignments.", "anchors": ["mmcore/geom/nurbs.pyx: NURBSSurface.__init__, degree, knots_u, knots_v, interval, _update_interval"]}
{"id": "C165", "title": "Derivatives of the basis functions", "statement": "ders_basis_funs(i, u, p, n, U), called with the knot span of u, returns a table whose entry [k, j] is the k-th derivative at u of the j-th B-spline basis function that is non-zero on the span, for 0 <= k <= n <= p, whatever the buffer contained.", "quantifier": "all valid knot vectors, degrees, orders up to the degree and parameters of the domain, all contents of the buffer", "why_tests_cant": "The table is built by swapping two rows of partial sums with index windows that depend on k and r; an error shows only for particular (k, r).", "anchors": ["mmcore/geom/nurbs.pyx: ders_basis_funs, all_basis_funs"]}
{"id": "C166", "title": "Derivatives of non-rational curves", "statement": "For a curve with all weights equal to one, derivatives1, derivatives2, derivative and second_derivative return the derivatives of the curve of order 0..min(d, degree) (orders one and two), and the two algorithms agree.", "quantifier": "all valid curves with unit weights, all orders, all parameters of the domain including knots and both ends", "why_tests_cant": "Derivatives of all orders at all parameters; a finite-difference test cannot see a wrong higher derivative or a wrong one-sided value at a knot.", "anchors": ["mmcore/geom/nurbs.pyx: curve_derivs_alg1, curve_derivs_alg2, curve_deriv_cpts, NURBSCurve.derivatives1, derivatives2, derivative, second_derivative"]}
{"id": "C167", "title": "Derivatives of rational curves", "statement": "derivative(t) and derivatives(t, d) of a NURBSCurve are the derivatives of the curve that evaluate computes, also when the weights differ.", "quantifier": "all valid curves with positive weights and all parameters", "why_tests_cant": "Tests with unit weights cannot see the missing quotient rule.", "anchors": ["mmcore/geom/nurbs.pyx: NURBSCurve.derivative, cderivatives1, cderivatives2"]}
{"id": "C168", "title": "Control points of the derivative curves", "statement": "derivative_control_points(t, d) returns the control points of the derivatives of the curve around t.", "quantifier": "all valid curves, orders and parameters", "why_tests_cant": "The call works on no input; only a statement about all inputs says so.", "anchors": ["mmcore/geom/nurbs.pyx: NURBSCurve.derivative_control_points, curve_deriv_cpts"]}
{"id": "C169", "title": "Frames of a curve", "statement": "plane_at(t) returns the point of the curve and a right-handed orthonormal frame whose first vector points along the first derivative and whose second lies in the plane of the first two derivatives, on the side of the second derivative; normal(t) returns the second vector of that frame.", "quantifier": "all valid curves with unit weights and parameters, any exact square root", "why_tests_cant": "Orthonormality for all inputs is an algebraic identity, samples do not establish it.", "anchors": ["mmcore/geom/nurbs.pyx: cplane, cnormal", "mmcore/geom/parametric.pyx: plane_at, normal", "mmcore/numeric/vectors.pyx: scalar_gram_schmidt_emplace, scalar_norm"]}
{"id": "C170", "title": "Tangent and curvature vectors", "statement": "tangent(t) is the unit vector along the first derivative, and curvature(t) is the vector orthogonal to it with length |D1 x D2| / |D1|^3.", "quantifier": "all valid curves with unit weights, all parameters where the first derivative is not (almost) zero, any exact square root", "why_tests_cant": "An identity of algebraic expressions for all inputs.", "anchors": ["mmcore/geom/nurbs.pyx: ctangent, ccurvature", "mmcore/numeric/calgorithms.pyx: evaluate_tangent, evaluate_curvature"]}
{"id": "C171", "title": "Derivatives of the homogeneous surface", "statement": "surface_derivatives returns for all k, l <= order the derivative of order (k, l) of the four-column (homogeneous) surface at (u, v), zeros above the degrees.", "quantifier": "all valid surfaces, all orders, all parameters of the domain, all contents of the scratch memory", "why_tests_cant": "All spans, orders and both ends of the domain.", "anchors": ["mmcore/geom/nurbs.pyx: surface_derivatives, surface_derivatives_py"]}
{"id": "C172", "title": "Derivatives of the rational surface", "statement": "Applied to the result of surface_derivatives, rat_surface_derivs returns for all k, l <= order the derivative of order (k, l) of the surface point.", "quantifier": "all valid surfaces with positive weights, all orders up to 30, all parameters", "why_tests_cant": "The recursion mixes all lower orders with binomial coefficients; tests check one or two orders at a few points.", "anchors": ["mmcore/geom/nurbs.pxd: rat_surface_derivs", "mmcore/geom/nurbs.pyx: rat_surface_derivs_py, surface_derivatives"]}
{"id": "C173", "title": "Romberg integration returns a diagonal entry of the Romberg table", "statement": "romberg1d(f, a, b, max_steps, acc) returns R(k, k) of the table that starts from the trapezoidal rules with 1, 2, 4, ... panels and extrapolates with the factors 4^j; k is the first index >= 2 with |R(k-1, k-1) - R(k, k)| < acc, or max_steps - 1.", "quantifier": "all functions, all intervals, all numbers of steps >= 1, all accuracies", "why_tests_cant": "The two rows are swapped in place and every row depends on all previous ones; a test compares one number.", "anchors": ["mmcore/numeric/integrate/romberg.pyx: romberg1d"]}
{"id": "C174", "title": "Romberg integration is exact on polynomials", "statement": "For a polynomial of degree below 2 * max_steps, romberg1d returns the exact integral when acc <= 0; for degree at most five it does so for every acc.", "quantifier": "all polynomials of such degrees, all intervals, all numbers of steps", "why_tests_cant": "Exactness for all degrees needs the expansion of the trapezoidal error in even powers of the step, not samples.", "anchors": ["mmcore/numeric/integrate/romberg.pyx: romberg1d"]}
{"id": "C175", "title": "Romberg integration reaches the requested accuracy", "statement": "When romberg1d stops early, its result differs from the integral by less than acc.", "quantifier": "all functions, intervals and accuracies", "why_tests_cant": "A counterexample must vanish at the first five nodes; typical test integrands do not.", "anchors": ["mmcore/numeric/integrate/romberg.pyx: romberg1d"]}
{"id": "C176", "title": "Plane coordinates are an isometric bijection", "statement": "For a plane with an orthonormal frame, inverse_evaluate_plane and evaluate_plane undo each other in both orders, for single points and for arrays, and evaluate_plane preserves distances.", "quantifier": "all orthonormal planes, all points, all arrays of points", "why_tests_cant": "Orthonormality of rows implies orthonormality of columns; a test only checks axis-aligned frames.", "anchors": ["mmcore/numeric/plane/cplane.pyx: evaluate_plane", "mmcore/numeric/plane/cplane.pyx: inverse_evaluate_plane", "mmcore/numeric/plane/cplane.pyx: evaluate_plane_arr", "mmcore/numeric/plane/cplane.pyx: inverse_evaluate_plane_arr"]}
{"id": "C177", "title": "A finite point of three planes is their only common point", "statement": "When plane_plane_plane_intersect returns finite numbers, the point lies on all three planes and no other point does.", "quantifier": "all triples of planes, all prior contents of the result buffer", "why_tests_cant": "The elimination pivots by a binary search over rows; the pivot order depends on the values.", "anchors": ["mmcore/numeric/plane/cplane.pyx: plane_plane_plane_intersect", "mmcore/numeric/plane/cplane.pyx: cplane_plane_plane_intersect_points_and_normals", "mmcore/numeric/plane/cplane.pyx: solve_system_3x3"]}
{"id": "C178", "title": "Three planes with independent normals have a finite intersection point", "statement": "plane_plane_plane_intersect returns finite numbers whenever the three normals are linearly independent.", "quantifier": "all triples of planes with independent normals", "why_tests_cant": "Only particular orders of the planes fail.", "anchors": ["mmcore/numeric/plane/cplane.pyx: plane_plane_plane_intersect"]}
{"id": "C179", "title": "The line of two planes is their intersection", "statement": "When plane_plane_intersect returns finite numbers, the direction is the cross product of the normals and not zero, the points of the line are exactly the common points of the planes, and the base point is the common point closest to half the origin of the first plane.", "quantifier": "all pairs of planes, all prior contents of the buffers", "why_tests_cant": "A 5 by 5 elimination on symbolic entries; tests compare samples.", "anchors": ["mmcore/numeric/plane/cplane.pyx: plane_plane_intersect", "mmcore/numeric/plane/cplane.pyx: solve_system_5x5"]}
{"id": "C180", "title": "Two planes that are not parallel have a finite intersection line", "statement": "plane_plane_intersect returns finite numbers whenever the normals are not parallel.", "quantifier": "all pairs of planes with independent normals", "why_tests_cant": "A test with generic normals passes; the failure needs a shared zero coordinate.", "anchors": ["mmcore/numeric/plane/cplane.pyx: plane_plane_intersect"]}
{"id": "C181", "title": "Intersections of stacks of planes are the pairwise intersections", "statement": "plane_plane_intersection(a, b) on single planes or stacks returns, row by row, what plane_plane_intersect(a_i, b_i) returns; planes_planes_intersect returns the lines.", "quantifier": "all planes and stacks of planes", "why_tests_cant": "The direction of the line has the wrong sign only for one of the four shapes.", "anchors": ["mmcore/numeric/plane/cplane.pyx: plane_plane_intersection", "mmcore/numeric/plane/cplane.pyx: planes_planes_intersect"]}
{"id": "C182", "title": "Rays and lines meet planes where they should", "statement": "ray_plane_intersection returns p exactly when |n.d| >= 1e-15 and p = o + t d with t >= 0 is on the plane, and None otherwise; plane_line_intersection returns (w, s, p) exactly when |n.d| >= tol, w is the line origin relative to the plane, and p = o + s d is on the plane.", "quantifier": "all planes, rays and lines, all tolerances > 0", "why_tests_cant": "Both directions of the equivalence quantify over all parameters t.", "anchors": ["mmcore/numeric/plane/cplane.pyx: ray_plane_intersection", "mmcore/numeric/plane/__init__.py: plane_line_intersection"]}
{"id": "C183", "title": "plane_ray_intersection accepts planes as four rows or as (origin, normal)", "statement": "plane_ray_intersection returns the intersection of the ray with the plane for both layouts.", "quantifier": "all planes and rays", "why_tests_cant": "Only the branch for the shorter layout fails, with an error about a local name.", "anchors": ["mmcore/numeric/plane/__init__.py: plane_ray_intersection"]}
{"id": "C184", "title": "The parametric ray-plane intersection returns the coordinates of the hit", "statement": "If both axes are orthogonal to the normal, a returned (p, (u, v)) satisfies p = o + u X + v Y and p is the ray-plane intersection, also for axes that are neither unit nor orthogonal; if the axes are independent beyond 1e-15, None is returned only when the ray misses.", "quantifier": "all planes with axes orthogonal to the normal, all rays", "why_tests_cant": "Non-orthogonal axes need the Gram matrix inverse; samples with orthonormal axes do not exercise it.", "anchors": ["mmcore/numeric/plane/cplane.pyx: ray_plane_parametric_intersection"]}
{"id": "C185", "title": "The plane equation through three points", "statement": "plane_eq_from_pts gives (a, b, c) = (p1 - p0) x (p2 - p0) and is satisfied exactly by the points of the plane through p0 with that normal, in particular by the three points; plane_signed_distance vanishes on exactly the points that satisfy the equation.", "quantifier": "all triples of points, all lists of points", "why_tests_cant": "An algebraic identity in nine variables.", "anchors": ["mmcore/numeric/plane/__init__.py: plane_eq_from_pts"]}
{"id": "C186", "title": "A plane built from an equation lies on it", "statement": "plane_from_eq returns a unit normal parallel to (a, b, c) and an origin that satisfies the equation.", "quantifier": "all equations with (a, b, c) not zero", "why_tests_cant": "Planes through the world origin pass any test.", "anchors": ["mmcore/numeric/plane/__init__.py: plane_from_eq"]}
{"id": "C187", "title": "A plane through three points has a right-handed orthonormal frame", "statement": "plane_from_3pt returns origin p0, unit pairwise orthogonal axes with X x Y = N, the three points on the plane, p1 on the positive X axis and p2 on the positive Y side.", "quantifier": "all triples of points that are not collinear, square roots assumed exact for the two lengths used", "why_tests_cant": "Orthonormality is an algebraic identity modulo the two square roots.", "anchors": ["mmcore/numeric/plane/__init__.py: plane_from_3pt"]}
{"id": "C188", "title": "A plane from origin and normal has a right-handed orthonormal frame", "statement": "plane_from_normal2 returns a frame with X x Y = N and N the unit normal.", "quantifier": "all origins, all normals with squared length above 1e-5", "why_tests_cant": "Orthonormality tests pass; only the orientation is wrong.", "anchors": ["mmcore/numeric/plane/__init__.py: plane_from_normal2"]}
{"id": "C189", "title": "A plane from normal and origin is defined for every origin", "statement": "plane_from_normal_origin returns a right-handed orthonormal frame for every unit normal and every origin.", "quantifier": "all unit normals and origins", "why_tests_cant": "The failing origins form a line through the world origin.", "anchors": ["mmcore/numeric/plane/__init__.py: plane_from_normal_origin"]}
{"id": "C190", "title": "Projection onto a plane is the foot of the perpendicular", "statement": "project and project_point_by_normal return a point of the plane that differs from the given point by a multiple of the normal and is the closest point of the plane.", "quantifier": "all planes with unit normals, all points", "why_tests_cant": "Minimality quantifies over all points of the plane.", "anchors": ["mmcore/numeric/plane/__init__.py: project", "mmcore/numeric/plane/__init__.py: project_point_by_normal"]}
{"id": "C191", "title": "The distance to a plane", "statement": "distance(plane, p) is the smallest distance between p and a point of the plane, also for normals that are not unit.", "quantifier": "all planes with non-zero normals, all points, the square root of the squared length of the normal assumed exact", "why_tests_cant": "Minimality quantifies over all points of the plane.", "anchors": ["mmcore/numeric/plane/__init__.py: distance"]}
{"id": "C192", "title": "Local and world coordinates", "statement": "local_to_world and world_to_local undo each other, and local_to_world without a plane uses the world XY plane.", "quantifier": "all points, all orthonormal planes", "why_tests_cant": "The default argument is never exercised by calls that pass a plane.", "anchors": ["mmcore/numeric/plane/__init__.py: local_to_world", "mmcore/numeric/plane/__init__.py: world_to_local"]}
{"id": "C193", "title": "Inner products", "statement": "scalar_dot(a, b) is the sum of the products of equal entries, and dot(a, b) of two arrays of rows is the list of the inner products of equal rows, whatever memory the result array held.", "quantifier": "all arrays of matching shape and any dimension, all initial contents of the result", "why_tests_cant": "The contents of uninitialised memory and the dimension are unbounded.", "anchors": ["mmcore/numeric/vectors.pyx: scalar_dot", "mmcore/numeric/vectors.pyx: dot"]}
{"id": "C194", "title": "Products of arrays do not depend on memory nobody has set", "statement": "dot_array_x_array, dot_vec_x_array, dot_array_x_vec and matmul_array return the inner products of the rows, of the vector with every row, and the matrix products.", "quantifier": "all arrays of matching shape, all contents of freshly allocated memory", "why_tests_cant": "Fresh memory is mostly zero in short test runs.", "anchors": ["mmcore/numeric/vectors.pyx: dot_array_x_array", "mmcore/numeric/vectors.pyx: dot_vec_x_array", "mmcore/numeric/vectors.pyx: dot_array_x_vec", "mmcore/numeric/vectors.pyx: matmul_array"]}
{"id": "C195", "title": "Lengths and unit vectors", "statement": "scalar_norm and norm return the square root of the sum of squares; scalar_unit and unit return a vector of length one of which the argument is a positive multiple.", "quantifier": "all vectors and arrays of non-zero rows of any dimension, the square roots of the squared lengths assumed exact", "why_tests_cant": "Dimension and entries are unbounded.", "anchors": ["mmcore/numeric/vectors.pyx: scalar_norm", "mmcore/numeric/vectors.pyx: norm", "mmcore/numeric/vectors.pyx: scalar_unit", "mmcore/numeric/vectors.pyx: unit"]}
{"id": "C196", "title": "Normalising in place", "statement": "scalar_normalize turns a vector longer than 1e-15 into the unit vector of the same direction and returns 1; a shorter vector is left as it was and the result is 0.", "quantifier": "all vectors of any dimension, exact square root", "why_tests_cant": "The threshold and the dimension range over all numbers.", "anchors": ["mmcore/numeric/vectors.pyx: scalar_normalize"]}
{"id": "C197", "title": "Support points", "statement": "support_vector returns the first vertex whose inner product with the direction is largest, and zeros when there is no vertex; multi_support_vector does so for every direction.", "quantifier": "all arrays of vertices and directions of matching dimension", "why_tests_cant": "Ties and negative products of any number of vertices.", "anchors": ["mmcore/numeric/vectors.pyx: support_vector", "mmcore/numeric/vectors.pyx: multi_support_vector"]}
{"id": "C198", "title": "Row-wise Gram-Schmidt", "statement": "gram_schmidt(A, B) returns in row i the row B[i] minus its component along the unit row A[i], which is orthogonal to A[i].", "quantifier": "all arrays of matching shape", "why_tests_cant": "Rows whose entries are all equal hide the defect.", "anchors": ["mmcore/numeric/vectors.pyx: gram_schmidt"]}
{"id": "C199", "title": "Gram-Schmidt of two vectors", "statement": "scalar_gram_schmidt(vec1, vec2, result) puts vec2 minus its component along the unit vector vec1 into result, also when result is one of the two arguments.", "quantifier": "all vectors, all three places of the result", "why_tests_cant": "Aliasing of arguments is not visible in the signature.", "anchors": ["mmcore/numeric/vectors.pyx: scalar_gram_schmidt"]}
{"id": "C200", "title": "Systems and inverses of size two", "statement": "solve2x2 returns True exactly when the matrix is regular, and then result is the only solution; otherwise result is untouched. cinvert_jacobian returns 0 with the two-sided inverse for regular matrices and -1 with untouched memory for singular ones.", "quantifier": "all matrices, right-hand sides and prior contents of the result", "why_tests_cant": "Uniqueness quantifies over all vectors.", "anchors": ["mmcore/numeric/vectors.pyx: solve2x2", "mmcore/numeric/vectors.pyx: cinvert_jacobian"]}
{"id": "C201", "title": "Solving in place", "statement": "solve2x2 gives the solution also when the result array is the right-hand side.", "quantifier": "all regular matrices and right-hand sides", "why_tests_cant": "Aliasing of arguments is not visible in the signature.", "anchors": ["mmcore/numeric/vectors.pyx: solve2x2"]}
{"id": "C202", "title": "Inverting one or many matrices", "statement": "invert_jacobian returns the inverse and a status for a single matrix, and the inverses and statuses for an array of matrices.", "quantifier": "all arrays with two or three dimensions", "why_tests_cant": "Every input of the second kind fails, whatever its size.", "anchors": ["mmcore/numeric/vectors.pyx: invert_jacobian"]}
{"id": "C203", "title": "Coordinates of a vector along two others", "statement": "For independent a and b, decompose_vector(v, a, b) is the only pair (x, y) that makes the length of v - x a - y b smallest; it is exact when v is a combination of a and b. decompose_vectors does so for every row.", "quantifier": "all vectors of any dimension, all independent pairs", "why_tests_cant": "Minimality quantifies over all pairs of numbers.", "anchors": ["mmcore/numeric/vectors.pyx: decompose_vector", "mmcore/numeric/vectors.pyx: decompose_vectors"]}
{"id": "C204", "title": "Coordinates along dependent vectors", "statement": "decompose_vector(v, a, b) returns numbers computed from its arguments for every a and b.", "quantifier": "all dependent pairs a and b, all contents of fresh memory", "why_tests_cant": "Fresh memory is mostly zero in short test runs.", "anchors": ["mmcore/numeric/vectors.pyx: decompose_vector"]}
{"id": "C205", "title": "Closest points on a line", "statement": "vector_projection(a, b) is the multiple of b closest to a; closest_point_on_ray and closest_point_on_line of numeric.closest_point return the point of the line closest to the given point.", "quantifier": "all points, all lines with non-zero direction", "why_tests_cant": "Minimality quantifies over all points of the line.", "anchors": ["mmcore/numeric/vectors.pyx: vector_projection", "mmcore/numeric/closest_point.py: closest_point_on_ray", "mmcore/numeric/closest_point.py: closest_point_on_line"]}
{"id": "C206", "title": "The closest point of a ray is a point of the ray", "statement": "closest_point_on_ray((start, direction), point) returns a point start + t direction with t >= 0.", "quantifier": "all rays and points", "why_tests_cant": "Only points behind the start show it.", "anchors": ["mmcore/numeric/closest_point.py: closest_point_on_ray"]}
{"id": "C207", "title": "Closest points of the vector module", "statement": "closest_point_on_ray and closest_point_on_line of numeric.vectors return the point of the line closest to the given point.", "quantifier": "all lines and points", "why_tests_cant": "Lines through the origin hide the defect.", "anchors": ["mmcore/numeric/vectors.pyx: closest_point_on_ray", "mmcore/numeric/vectors.pyx: closest_point_on_line"]}
{"id": "C208", "title": "Closest point of the surface marching module", "statement": "The closest point on a line used by the surface-surface marching code lies on the line.", "quantifier": "all lines and points", "why_tests_cant": "Points on the line hide the defect.", "anchors": ["mmcore/numeric/intersection/pp.py: _closest_point_on_line", "mmcore/numeric/intersection/pp.py: _vector_projection"]}
{"id": "C209", "title": "Orientation of a closed polygon", "statement": "points_order of a polygon with the first point repeated at the end is 0, 1 or -1 as the signed area is negative, positive or zero; it does not change under translation and exchanges 0 and 1 when the order is reversed. features.points_order with close=True does so for polygons of at least three points and raises ValueError for fewer.", "quantifier": "all polygons with any number of points", "why_tests_cant": "The number of points is unbounded.", "anchors": ["mmcore/numeric/vectors.pyx: points_order", "mmcore/numeric/vectors.pyx: multi_points_order", "mmcore/numeric/vectors.pyx: cdet", "mmcore/geom/features.py: points_order"]}
{"id": "C210", "title": "Orientation of an open list of points", "statement": "points_order of a polygon without the repeated point does not change under translation.", "quantifier": "all lists whose first and last point have different x", "why_tests_cant": "Test polygons near the origin hide the dependence.", "anchors": ["mmcore/numeric/vectors.pyx: points_order", "mmcore/geom/features.py: points_order"]}
{"id": "C211", "title": "Cross products", "statement": "cross works row by row; the cross product is orthogonal to both arguments and changes sign when they are exchanged; normal_from_4pt is orthogonal to both diagonals and parallel to the normal of a plane that contains the four points.", "quantifier": "all vectors and all quadruples of points", "why_tests_cant": "Identities over all numbers.", "anchors": ["mmcore/numeric/vectors.pyx: cross", "mmcore/numeric/vectors.pyx: scalar_cross", "mmcore/numeric/vectors.pyx: normal_from_4pt"]}
{"id": "C212", "title": "Spherical coordinates", "statement": "spherical_to_cartesian undoes cartesian_to_spherical, and a non-negative radius survives the opposite round trip.", "quantifier": "all points, with the values of sqrt, sin, cos and atan2 at the arguments used assumed exact", "why_tests_cant": "Points range over all of space.", "anchors": ["mmcore/numeric/vectors.pyx: spherical_to_cartesian", "mmcore/numeric/vectors.pyx: cartesian_to_spherical"]}
{"id": "C213", "title": "Cylindrical coordinates", "statement": "cylindrical_to_xyz undoes the conversion from Cartesian to cylindrical coordinates.", "quantifier": "all points, exact elementary functions", "why_tests_cant": "Points on the positive y axis hide the defect.", "anchors": ["mmcore/numeric/vectors.pyx: courtesan_to_cylindrical", "mmcore/numeric/vectors.pyx: cylindrical_to_xyz"]}
{"id": "C214", "title": "Closeness is symmetric", "statement": "is_close(a, b) = is_close(b, a).", "quantifier": "all numbers and tolerances", "why_tests_cant": "The pairs that differ lie in a thin band.", "anchors": ["mmcore/numeric/vectors.pyx: is_close"]}
{"id": "C215", "title": "From a displacement in space to one in parameters (compiled)", "statement": "improve_uv either fails, exactly when none of the three minors of (du, dv) reaches 1e-9, and leaves the result array alone; or it succeeds, and whenever the displacement is x du + y dv the result is (x, y).", "quantifier": "all derivatives, all points, all previous contents of the result", "why_tests_cant": "Which minor is largest depends on all six entries.", "anchors": ["mmcore/numeric/intersection/ssx/_ssi.pyx: improve_uv"]}
{"id": "C216", "title": "The order of the two derivatives does not decide about failure", "statement": "improve_uv succeeds for (du, dv) exactly when it succeeds for (dv, du).", "quantifier": "all derivatives and points", "why_tests_cant": "Tests use the derivatives of right-handed parametrisations.", "anchors": ["mmcore/numeric/intersection/ssx/_ssi.pyx: improve_uv"]}
{"id": "C217", "title": "From a displacement in space to one in parameters (Python)", "statement": "The Python versions of improve_uv find (x, y) for the displacement x du + y dv whenever du and dv are independent.", "quantifier": "all independent derivatives, all points", "why_tests_cant": "The choice of the minor depends on all six entries.", "anchors": ["mmcore/numeric/intersection/ssx/surface_surface.py: improve_uv", "mmcore/geom/curves/offset.py: _improve_uv", "mmcore/numeric/intersection/ssx/sectioal_tangent.py: improve_uv"]}
{"id": "C218", "title": "Two planes meet at the nearest common point", "statement": "For two affine functions with independent gradients intersection_curve_point, in Python and compiled, returns the common zero nearest to the starting point and reports success.", "quantifier": "all affine functions with independent gradients, all starting points, all tolerances and iteration limits that are not negative", "why_tests_cant": "Gradients, constants and starting points range over all numbers.", "anchors": ["mmcore/numeric/algorithms/implicit_point.py: intersection_curve_point", "mmcore/numeric/calgorithms.pxd: cintersection_curve_point"]}
{"id": "C219", "title": "What holds at an intersection point returned", "statement": "When intersection_curve_point returns a point as success, a point within the tolerance exists at which either the gradients are dependent or the linear approximations of both functions vanish at the point returned.", "quantifier": "all functions and gradients, all starting points, tolerances and limits", "why_tests_cant": "The functions are arbitrary and the number of iterations is not fixed.", "anchors": ["mmcore/numeric/algorithms/implicit_point.py: intersection_curve_point"]}
{"id": "C220", "title": "Success means that the point is near both surfaces", "statement": "A point that intersection_curve_point returns as success nearly solves the linear approximations of both equations.", "quantifier": "all functions and starting points", "why_tests_cant": "Needs a start with dependent gradients.", "anchors": ["mmcore/numeric/algorithms/implicit_point.py: intersection_curve_point"]}
{"id": "C221", "title": "The answer with gradients and no_err is a pair", "statement": "With return_grads and no_err intersection_curve_point returns a pair of the success flag and the data.", "quantifier": "all functions, starting points, tolerances and limits", "why_tests_cant": "The form of the answer for every input is a universal statement.", "anchors": ["mmcore/numeric/algorithms/implicit_point.py: intersection_curve_point"]}
{"id": "C222", "title": "The compiled intersection point agrees with the Python one", "statement": "When the compiled function reports success its result is the point the Python function returns, and the gradients at the start are independent; when the Python function raises for lack of convergence the compiled one reports failure and leaves the result array alone; for dependent gradients at the start it reports failure.", "quantifier": "all functions, starting points, tolerances, limits and contents of the result", "why_tests_cant": "Two implementations compared on arbitrary functions.", "anchors": ["mmcore/numeric/calgorithms.pxd: cintersection_curve_point", "mmcore/numeric/algorithms/implicit_point.py: intersection_curve_point"]}
{"id": "C223", "title": "A point of one implicit surface", "statement": "When surface_point returns r there is a point q nearer to r than the tolerance such that the linear approximation at q vanishes at r, or the gradient at q is zero and r = q; for an affine function with a non-zero gradient it returns the zero nearest to the start.", "quantifier": "all functions and gradients, all starts and tolerances", "why_tests_cant": "The functions are arbitrary and the loop has no bound.", "anchors": ["mmcore/numeric/algorithms/implicit_point.py: surface_point"]}
{"id": "C224", "title": "surface_point ends near the surface", "statement": "surface_point ends for every tolerance and returns a point near the surface.", "quantifier": "all functions, starts and tolerances", "why_tests_cant": "A loop that does not end cannot be observed by a test.", "anchors": ["mmcore/numeric/algorithms/implicit_point.py: surface_point"]}
{"id": "C225", "title": "The tangent plane of an implicit surface", "statement": "surface_plane returns a point of the surface with normal and tangents.", "quantifier": "all functions, starts and tolerances", "why_tests_cant": "Failure on every input is a universal statement.", "anchors": ["mmcore/numeric/algorithms/implicit_point.py: surface_plane"]}
{"id": "C226", "title": "A point of a plane implicit curve", "statement": "When curve_point returns r there is a point q within delta of r whose linear approximation vanishes at r, or with zero gradient and q = r; for an affine function with non-zero gradient curve_point and _curve_point2 return the zero nearest to the start.", "quantifier": "all functions and gradients, all starts; tolerances that are not negative (_curve_point2: in (0, 1])", "why_tests_cant": "The functions are arbitrary and the loops have no bound.", "anchors": ["mmcore/numeric/algorithms/implicit_point.py: curve_point", "mmcore/numeric/algorithms/implicit_point.py: _curve_point2"]}
{"id": "C227", "title": "_curve_point2 moves to the curve", "statement": "When _curve_point2 returns, its last step was shorter than the tolerance and solved the linear approximation.", "quantifier": "all functions, starts and tolerances", "why_tests_cant": "Needs a tolerance above the initial value of the step length.", "anchors": ["mmcore/numeric/algorithms/implicit_point.py: _curve_point2"]}
{"id": "C228", "title": "The parameter of a point of a curve", "statement": "point_inversion_curve returns a parameter whose point is close to the given one when there is such a parameter near the start.", "quantifier": "all curves, points, starts and tolerances", "why_tests_cant": "That no returned value is ever a newly found solution is a statement about all executions.", "anchors": ["mmcore/numeric/algorithms/point_inversion.py: point_inversion_curve"]}
{"id": "C229", "title": "The parameters of a point of a surface", "statement": "point_inversion_surface returns parameters whose point is close to the given one, or a foot of it, when there are such parameters near the start.", "quantifier": "all surfaces, points, starts and tolerances", "why_tests_cant": "That no returned value is ever a newly found solution is a statement about all executions.", "anchors": ["mmcore/numeric/algorithms/point_inversion.py: point_inversion_surface"]}
{"id": "C230", "title": "Orthonormal triples", "statement": "orthonormalize(u, v, w) returns an orthonormal triple a, b, c with u a positive multiple of a, v = k a + l b with l > 0 and w = k a + l b + m c with m > 0; if the part of v orthogonal to u is not longer than 1e-10 it raises ValueError.", "quantifier": "all vectors with non-zero u, exact square roots of the squared lengths used", "why_tests_cant": "The identities hold over all vectors.", "anchors": ["mmcore/geom/vec/__init__.py: orthonormalize"]}
{"id": "C231", "title": "orthonormalize leaves the vectors given as they are", "statement": "After orthonormalize(u, v, w) the arrays v and w hold what they held before.", "quantifier": "all vectors", "why_tests_cant": "Tests look at the returned triple.", "anchors": ["mmcore/geom/vec/__init__.py: orthonormalize"]}
{"id": "C232", "title": "The frame of a curve", "statement": "frenet_serret_frame returns the point and an orthonormal, right-handed T, N, B with the first derivative a positive multiple of T and the second derivative k T + l N with l > 0.", "quantifier": "all derivatives that are not parallel, exact square roots of the squared lengths used", "why_tests_cant": "The identities hold over all vectors.", "anchors": ["mmcore/numeric/algorithms/tnb.py: frenet_serret_frame"]}
{"id": "C233", "title": "Perpendicular vectors", "statement": "gram_schmidt and make_perpendicular of geom.vec return a vector perpendicular to the first argument, projection_length the length of the projection; perp2d returns the quarter turn to the left.", "quantifier": "all non-zero vectors", "why_tests_cant": "Failure on every input is a universal statement.", "anchors": ["mmcore/geom/vec/__init__.py: gram_schmidt", "mmcore/geom/vec/__init__.py: make_perpendicular", "mmcore/geom/vec/__init__.py: projection_length", "mmcore/geom/vec/__init__.py: perp2d"]}
{"id": "C234", "title": "The distance of an offset curve can be read", "statement": "OffsetCurve.offset returns the distance stored.", "quantifier": "all distances", "why_tests_cant": "Unbounded recursion.", "anchors": ["mmcore/geom/curves/offset.py: OffsetCurve.offset"]}
{"id": "C235", "title": "Inside an implicit curve; clamping to a box", "statement": "point_in_implicit_curve is true exactly when the value is at most 1e-8. clamp returns a point of the box, the point itself if it is in the box, and no point of the box is nearer.", "quantifier": "all functions and points; all boxes with ordered corners", "why_tests_cant": "Points and boxes range over all numbers.", "anchors": ["mmcore/numeric/algorithms/point_in_curve.py: point_in_implicit_curve", "mmcore/geom/vec/__init__.py: clamp"]}
{"id": "C236", "title": "The collision test answers", "statement": "Both collision tests answer yes or no for any two shapes with at least one vertex each, after at most the given number of passes (the compiled one: the product of the vertex counts when the number is 0), and never say yes before the third pass.", "quantifier": "all shapes, tolerances and pass limits", "why_tests_cant": "Termination and absence of errors over all inputs, including degenerate simplices.", "anchors": ["mmcore/numeric/algorithms/gjk.py: gjk_collision_detection", "mmcore/numeric/algorithms/cygjk.pyx: gjk"]}
{"id": "C237", "title": "No means no common point", "statement": "When a collision test answers no, the convex hulls of the two vertex lists have no common point.", "quantifier": "all shapes; every pass limit", "why_tests_cant": "A point of the hull is not a tested vertex; needs a separating direction for every input.", "anchors": ["mmcore/numeric/algorithms/gjk.py: gjk_collision_detection", "mmcore/numeric/algorithms/cygjk.pyx: gjk"]}
{"id": "C238", "title": "Yes of the Python collision test means a common point", "statement": "When gjk_collision_detection answers yes, the convex hulls have a common point.", "quantifier": "all shapes", "why_tests_cant": "Soundness over all inputs.", "anchors": ["mmcore/numeric/algorithms/gjk.py: gjk_collision_detection", "mmcore/numeric/algorithms/gjk.py: handle_simplex"]}
{"id": "C239", "title": "Yes of the compiled collision test means a common point", "statement": "When the compiled gjk answers yes, the convex hulls have a common point.", "quantifier": "all shapes, tolerances and pass limits", "why_tests_cant": "Soundness over all inputs.", "anchors": ["mmcore/numeric/algorithms/cygjk.pyx: gjk", "mmcore/numeric/algorithms/_gjk.cpp: gjk_collision_detection"]}
{"id": "C240", "title": "The order of the shapes does not matter", "statement": "Exchanging the two shapes does not change the answer of a collision test.", "quantifier": "all shapes", "why_tests_cant": "Symmetry over all pairs.", "anchors": ["mmcore/numeric/algorithms/gjk.py: gjk_collision_detection", "mmcore/numeric/algorithms/cygjk.pyx: gjk"]}
{"id": "C241", "title": "Moving both shapes does not change the answer", "statement": "Moving both shapes by the same vector changes the answer of neither collision test.", "quantifier": "all shapes, vectors, tolerances and pass limits", "why_tests_cant": "Two executions compared, for all inputs.", "anchors": ["mmcore/numeric/algorithms/gjk.py: gjk_collision_detection", "mmcore/numeric/algorithms/cygjk.pyx: gjk"]}
{"id": "C242", "title": "More passes keep a yes", "statement": "A collision test that answers yes with some pass limit gives the same answer with every larger limit, after the same number of passes.", "quantifier": "all shapes, tolerances and pairs of limits", "why_tests_cant": "Compares two executions of different length.", "anchors": ["mmcore/numeric/algorithms/gjk.py: gjk_collision_detection", "mmcore/numeric/algorithms/cygjk.pyx: gjk"]}
{"id": "C243", "title": "The support point", "statement": "support_vector returns the first vertex whose product with the direction is largest, with its index; without vertices it returns the zero vector and -1.", "quantifier": "all vertex lists and directions", "why_tests_cant": "All directions and lists of any length.", "anchors": ["mmcore/numeric/algorithms/gjk.py: support_vector", "mmcore/numeric/algorithms/_gjk.cpp: support_vector"]}
{"id": "C244", "title": "The distance to a triangle", "statement": "udTriangle returns the smallest distance from the point to the triangle when the three corners are different (also when the triangle has no area), and fails with a division by zero when two corners are equal.", "quantifier": "all points and triangles", "why_tests_cant": "Minimality over all points of the triangle.", "anchors": ["mmcore/numeric/algorithms/gjk.py: udTriangle"]}
{"id": "C245", "title": "The two collision tests agree", "statement": "The Python and the compiled collision test give the same answer for the same arguments.", "quantifier": "all shapes", "why_tests_cant": "Two programs compared over all inputs.", "anchors": ["mmcore/numeric/algorithms/gjk.py: gjk_collision_detection", "mmcore/numeric/algorithms/cygjk.pyx: gjk"]}
{"id": "C246", "title": "A reported point lies on segment and triangle", "statement": "When the triangle-segment test reports a point, the point is a point of the segment and of the triangle, both enlarged by 1e-8 of their size.", "quantifier": "all triangles and segments", "why_tests_cant": "Soundness over all inputs, including thin and degenerate triangles.", "anchors": ["mmcore/numeric/algorithms/moller.pyx: intersect_triangle_segment"]}
{"id": "C247", "title": "A common point is found", "statement": "When a segment crosses a triangle, the test reports the common point.", "quantifier": "all triangles and segments that are not parallel to the triangle", "why_tests_cant": "Completeness over all inputs and all scales.", "anchors": ["mmcore/numeric/algorithms/moller.pyx: intersect_triangle_segment"]}
{"id": "C248", "title": "The direction of the segment does not matter", "statement": "Exchanging the ends of the segment changes neither the answer of the triangle test nor the point.", "quantifier": "all triangles and segments", "why_tests_cant": "Two executions compared over all inputs, tolerances included.", "anchors": ["mmcore/numeric/algorithms/moller.pyx: intersect_triangle_segment"]}
{"id": "C249", "title": "Corner, side or inside", "statement": "The class of a point of a triangle is 2 exactly at the corners, 3 exactly on the sides and 1 otherwise.", "quantifier": "all triangles and points of them", "why_tests_cant": "Exactness over all points and all sizes of triangles.", "anchors": ["mmcore/numeric/algorithms/moller.pyx: intersect_triangles_segment"]}
{"id": "C250", "title": "The first triangle met", "statement": "intersect_triangles_segment_one returns the point of the first triangle of the list that the segment meets, and (None, 0) when it meets none.", "quantifier": "all lists of triangles and segments", "why_tests_cant": "Lists of every length.", "anchors": ["mmcore/numeric/algorithms/moller.pyx: intersect_triangles_segment_one"]}
{"id": "C251", "title": "The documented flag of the first triangle", "statement": "The flag of intersect_triangles_segment_one is 1 at a corner, 2 on a side and 4 inside, as documented.", "quantifier": "all triangles and segments", "why_tests_cant": "Covers all positions of the point.", "anchors": ["mmcore/numeric/algorithms/moller.pyx: intersect_triangles_segment_one"]}
{"id": "C252", "title": "The batch test works row by row", "statement": "intersect_triangles_segment writes in row i the answer for triangle i, leaves the point of a triangle that is not met, and all further rows, as they were.", "quantifier": "all lists of triangles, segments and output arrays that are long enough", "why_tests_cant": "Frame condition over arrays of any length.", "anchors": ["mmcore/numeric/algorithms/moller.pyx: intersect_triangles_segment"]}
{"id": "C253", "title": "The parallel batch test gives the sequential result", "statement": "intersect_triangles_segment_parallel writes the same points and flags as intersect_triangles_segment, whatever the scheduling of the threads.", "quantifier": "all triangles, segments, thread counts and interleavings", "why_tests_cant": "A data race shows only under some interleavings.", "anchors": ["mmcore/numeric/algorithms/moller.pyx: intersect_triangles_segment_parallel"]}
{"id": "C254", "title": "Every interleaving of the parallel batch test keeps other rows", "statement": "Under every scheduling the parallel test raises no error, keeps all rows that belong to no thread, and every flag it writes is between 0 and 3.", "quantifier": "all triangles, segments, chunkings and interleavings, finished or not", "why_tests_cant": "Quantifies over all interleavings.", "anchors": ["mmcore/numeric/algorithms/moller.pyx: intersect_triangles_segment_parallel"]}
{"id": "C255", "title": "A point found in a mesh lies on a triangle of it", "statement": "When the mesh query for a segment returns a point, the point lies (up to 1e-8) on the segment and on a triangle of the returned leaf, which is one of the triangles of the mesh; the query never fails.", "quantifier": "all meshes, leaf sizes and segments whose direction has no component between 0 and 1e-15 in size", "why_tests_cant": "Induction over trees of any shape and the order of the search.", "anchors": ["mmcore/geom/bvh/__init__.py: mesh_bvh_segment_intersection_one", "mmcore/geom/bvh/__init__.py: bvh_triangle_segment_intersection_one"]}
{"id": "C256", "title": "The mesh query overlooks no triangle", "statement": "When a segment crosses a triangle of a mesh, the mesh query returns a point.", "quantifier": "all meshes, leaf sizes and segments that cross a triangle", "why_tests_cant": "Pruning could be wrong only for special positions such as axis-parallel triangles.", "anchors": ["mmcore/geom/bvh/__init__.py: mesh_bvh_segment_intersection_one", "mmcore/geom/bvh/__init__.py: bvh_triangle_segment_intersection_one"]}
{"id": "C257", "title": "The triangles met by a ray", "statement": "The ray query returns exactly the triangles of the mesh that the ray meets, with the points, in the order along the ray.", "quantifier": "all meshes and rays", "why_tests_cant": "Completeness, soundness and order over all meshes.", "anchors": ["mmcore/geom/bvh/__init__.py: mesh_bvh_ray_intersection"]}
{"id": "C258", "title": "The number returned with a point of a ray is the distance", "statement": "The third component of an answer of the ray query is the distance of the point from the start of the ray, as documented.", "quantifier": "all meshes and rays", "why_tests_cant": "A wrong factor is invisible when the clipped part has length one.", "anchors": ["mmcore/geom/bvh/__init__.py: mesh_bvh_ray_intersection"]}
{"id": "C259", "title": "Rays and leaves with several triangles", "statement": "The ray query works for meshes with any number of triangles per leaf.", "quantifier": "all meshes with more than one triangle per leaf, all rays meeting them", "why_tests_cant": "Quantifies over all meshes and leaf sizes.", "anchors": ["mmcore/geom/bvh/__init__.py: mesh_bvh_ray_intersection", "mmcore/geom/bvh/__init__.py: build_bvh_from_mesh"]}
{"id": "C260", "title": "The signed distance of a sphere", "statement": "After any sequence of assignments to radius and origin, implicit(p) is the distance from p to the centre minus the radius: zero on the sphere, negative inside, positive outside.", "quantifier": "all spheres, assignments and points", "why_tests_cant": "All histories of assignments; the sign must be right at every point.", "anchors": ["mmcore/geom/primitives.pyx: Sphere.cimplicit", "mmcore/geom/primitives.pyx: Sphere.radius", "mmcore/geom/primitives.pyx: Sphere.origin"]}
{"id": "C261", "title": "The bounding box of a sphere is the smallest one", "statement": "After any sequence of assignments to radius and origin, bounds() contains the ball and each face touches it.", "quantifier": "all spheres with a radius that is not negative and all histories of assignments", "why_tests_cant": "Histories of any length; stale bounds show only after particular sequences.", "anchors": ["mmcore/geom/primitives.pyx: Sphere._calculate_bounds", "mmcore/geom/primitives.pyx: Sphere.bounds"]}
{"id": "C262", "title": "The gradient of a sphere leads to its surface", "statement": "Away from the centre gradient(p) is a unit vector away from the centre and p - implicit(p) * gradient(p) lies on the sphere; at the centre the division is by zero.", "quantifier": "all spheres and points", "why_tests_cant": "Two methods have to agree at every point.", "anchors": ["mmcore/geom/primitives.pyx: Sphere.cgradient"]}
{"id": "C263", "title": "Signed distances change no faster than the point moves", "statement": "For spheres, cylinders and tubes the difference of the values at two points is at most the distance of the points.", "quantifier": "all shapes, histories of assignments and pairs of points", "why_tests_cant": "A relation between two calls over a continuum of points.", "anchors": ["mmcore/geom/primitives.pyx: Sphere.cimplicit", "mmcore/geom/primitives.pyx: ImplicitCylinder.cimplicit", "mmcore/geom/primitives.pyx: Tube.cimplicit"]}
{"id": "C264", "title": "Cylinders and tubes are given by the distance to the axis", "statement": "After any sequence of assignments to start, end and radius, implicit(p) is n - radius for a cylinder and |n - radius| - thickness / 2 for a tube, where n is the distance from p to the line through start and end. When start and end coincide values, gradient and bounds are undefined, and a later assignment repairs the object.", "quantifier": "all cylinders, tubes, histories and points", "why_tests_cant": "Histories of any length, including degenerate intermediate states.", "anchors": ["mmcore/geom/primitives.pyx: ImplicitCylinder.cimplicit", "mmcore/geom/primitives.pyx: Tube.cimplicit", "mmcore/geom/primitives.pyx: ImplicitCylinder.start", "mmcore/geom/primitives.pyx: ImplicitCylinder.end", "mmcore/geom/primitives.pyx: ImplicitCylinder.radius"]}
{"id": "C265", "title": "The bounding box of a cylinder or a tube is the smallest one", "statement": "After any sequence of assignments, bounds() is the smallest box around the solid between the two end discs, with the outer radius of a tube.", "quantifier": "all cylinders, tubes and histories with different ends", "why_tests_cant": "Minimality over all directions of the axis and all histories.", "anchors": ["mmcore/geom/primitives.pyx: cylinder_aabb", "mmcore/geom/primitives.pyx: ImplicitCylinder._calculate_bounds", "mmcore/geom/primitives.pyx: Tube._calculate_bounds"]}
{"id": "C266", "title": "The bounding box contains the shape", "statement": "Every point where implicit is not positive lies in bounds().", "quantifier": "all cylinders and tubes", "why_tests_cant": "A statement about all points of an unbounded set.", "anchors": ["mmcore/geom/primitives.pyx: ImplicitCylinder.cimplicit", "mmcore/geom/primitives.pyx: ImplicitCylinder._calculate_bounds"]}
{"id": "C267", "title": "The gradient of a cylinder", "statement": "Away from the axis gradient(p) is a unit vector orthogonal to the axis, and moving p along it changes the distance to the axis by exactly the length of the move; on the axis the division is by zero.", "quantifier": "all cylinders, histories and points", "why_tests_cant": "Two methods have to agree at every point and for every direction of the axis.", "anchors": ["mmcore/geom/primitives.pyx: ImplicitCylinder.cgradient"]}
{"id": "C268", "title": "The gradient of a tube is the central difference", "statement": "gradient(p) of a tube is the vector of central differences of its implicit with step 1e-3.", "quantifier": "all tubes and points", "why_tests_cant": "An algebraic identity between forty generated temporaries and the definition of the shape.", "anchors": ["mmcore/geom/primitives.pyx: Tube.cgradient", "mmcore/geom/primitives.pyx: Tube.cimplicit"]}
{"id": "C269", "title": "The gradient of a tube is a unit vector", "statement": "As for spheres and cylinders, gradient(p) of a tube is a unit vector.", "quantifier": "all tubes and points off the axis", "why_tests_cant": "The failing points form a surface of measure zero.", "anchors": ["mmcore/geom/primitives.pyx: Tube.cgradient"]}
{"id": "C270", "title": "The inherited gradient", "statement": "The gradient of the base class is the normalised true gradient for every quadratic implicit function, the zero vector where the true gradient vanishes, and zero for the default implicit.", "quantifier": "all quadratic functions and points", "why_tests_cant": "Exactness over a ten-parameter family of functions.", "anchors": ["mmcore/geom/primitives.pyx: Implicit3D.cgradient", "mmcore/geom/primitives.pyx: Implicit3D.cimplicit"]}
{"id": "C271", "title": "The parametric cylinder covers its surface and nothing else", "statement": "Every evaluated point is at distance radius from the axis, has implicit zero and axial position v, and lies in bounds() for v between 0 and the length; every point at distance radius from the axis is evaluated at some parameters.", "quantifier": "all cylinders whose axis is not along -x, and all parameters", "why_tests_cant": "Surjectivity onto a surface and agreement of two representations.", "anchors": ["mmcore/geom/primitives.pyx: Cylinder.cevaluate", "mmcore/geom/primitives.pyx: Cylinder.implicit", "mmcore/geom/primitives.pyx: Cylinder.bounds"]}
{"id": "C272", "title": "The gradient at the parameters of a point", "statement": "The gradient at the point evaluated at (u, v) is cos(u) U + sin(u) V for the frame of the cylinder.", "quantifier": "all cylinders whose axis is not along -x, and all parameters", "why_tests_cant": "Agreement of the parametric and the implicit side at every parameter.", "anchors": ["mmcore/geom/primitives.pyx: Cylinder.gradient", "mmcore/geom/primitives.pyx: Cylinder.cevaluate"]}
{"id": "C273", "title": "Every axis gives a cylinder", "statement": "The constructor builds a right-handed orthonormal frame for every axis of positive length.", "quantifier": "all pairs of different ends", "why_tests_cant": "The failing directions are a single half line.", "anchors": ["mmcore/geom/primitives.pyx: Cylinder.__init__"]}
{"id": "C274", "title": "Assigning the radius of a parametric cylinder", "statement": "After an assignment to the public field radius, evaluated points have implicit zero.", "quantifier": "all cylinders and radii", "why_tests_cant": "Needs a mutation followed by two methods.", "anchors": ["mmcore/geom/primitives.pyx: Cylinder.cevaluate", "mmcore/geom/primitives.pyx: Cylinder.implicit"]}
{"id": "C275", "title": "The default derivative of a curve", "statement": "For a curve class that gives only evaluate, derivative(t) is the derivative of evaluate, up to the error of a central difference, which is zero for curves of degree two.", "quantifier": "all curves of degree at most two and all t", "why_tests_cant": "A test against a fixed tolerance of the same order as the step passes for small derivatives.", "anchors": ["mmcore/geom/parametric.pyx: ParametricCurve.cderivative", "mmcore/geom/parametric.pyx: ParametricCurve.csecond_derivative"]}
{"id": "C276", "title": "Curvature with default derivatives", "statement": "For a curve class that gives only evaluate, curvature(t) is the curvature vector of the curve for every curve of degree at most two with a derivative that is not zero.", "quantifier": "all curves of degree at most two and all t", "why_tests_cant": "The two wrong scale factors cancel, which no test of one value explains.", "anchors": ["mmcore/geom/parametric.pyx: ParametricCurve.ccurvature", "mmcore/geom/parametric.pyx: ParametricCurve.cderivative", "mmcore/numeric/calgorithms.pyx: evaluate_curvature"]}
{"id": "C277", "title": "The frame of a curve", "statement": "When the first and second derivatives are not parallel, plane_at(t) is the point, the unit tangent, the unit normal on the side of the second derivative and their cross product; normal(t) is the same normal, and tangent(t) is the unit tangent.", "quantifier": "all curve classes, whatever their evaluate and derivatives, and all t", "why_tests_cant": "Holds for every subclass that overrides the virtual methods.", "anchors": ["mmcore/geom/parametric.pyx: ParametricCurve.cplane", "mmcore/geom/parametric.pyx: ParametricCurve.cnormal", "mmcore/geom/parametric.pyx: ParametricCurve.ctangent"]}
{"id": "C278", "title": "Calling a curve with a list of parameters", "statement": "curve(ts) has one row per parameter.", "quantifier": "all curves and lists", "why_tests_cant": "Lists of every length.", "anchors": ["mmcore/geom/parametric.pyx: ParametricCurve.__call__"]}
{"id": "C279", "title": "points samples the whole interval evenly", "statement": "points(n) has n rows, the first is the start of the interval, the last its end and row i is evaluated at the i-th of n evenly spread parameters.", "quantifier": "all curves and n >= 2", "why_tests_cant": "All n.", "anchors": ["mmcore/geom/parametric.pyx: ParametricCurve.points"]}
{"id": "C280", "title": "Derivatives of cubic curves", "statement": "derivative and second_derivative of a cubic curve are the derivatives, by the definition with limits, of evaluate and of derivative; the compiled and the python class agree.", "quantifier": "all control points and parameters", "why_tests_cant": "An identity of polynomials in thirteen variables.", "anchors": ["mmcore/geom/curves/_cubic.pyx: CubicSpline.cevaluate", "mmcore/geom/curves/_cubic.pyx: CubicSpline.cderivative", "mmcore/geom/curves/_cubic.pyx: CubicSpline.csecond_derivative", "mmcore/geom/curves/cubic.py: PyCubicSpline"]}
{"id": "C281", "title": "A cubic curve is the Bezier curve of its points", "statement": "evaluate(t) is the point of de Casteljau's construction, and every half space that contains the four points contains the curve for 0 <= t <= 1.", "quantifier": "all control points, half spaces and parameters", "why_tests_cant": "Convexity for all directions.", "anchors": ["mmcore/geom/curves/_cubic.pyx: CubicSpline.cevaluate"]}
{"id": "C282", "title": "c0 and c1 are the derivatives at the ends", "statement": "As documented, c0 is the first derivative at the start of the curve and c1 at its end.", "quantifier": "all control points", "why_tests_cant": "The documentation and the formula are both plausible.", "anchors": ["mmcore/geom/curves/cubic.py: CubicSpline.__init__", "mmcore/geom/curves/_cubic.pyx: CubicSpline.cderivative"]}
{"id": "C283", "title": "Default derivatives of a surface", "statement": "For a surface class that gives only evaluate, derivative_u and derivative_v are exact for surfaces of degree two in that parameter.", "quantifier": "all surfaces of degree at most two in one parameter, all parameters", "why_tests_cant": "The wrong values are near the edges of the domain only and of the size of the step.", "anchors": ["mmcore/geom/parametric.pyx: ParametricSurface.cderivative_u", "mmcore/geom/parametric.pyx: ParametricSurface.cderivative_v"]}
{"id": "C284", "title": "Default second derivatives of a surface", "statement": "second_derivative_uu, _vv and _uv are exact for surfaces of degree two.", "quantifier": "all surfaces of degree at most two, all parameters of the domain", "why_tests_cant": "The error is a factor of two and only within one step of the edges.", "anchors": ["mmcore/geom/parametric.pyx: ParametricSurface.csecond_derivative_uu", "mmcore/geom/parametric.pyx: ParametricSurface.csecond_derivative_vv", "mmcore/geom/parametric.pyx: ParametricSurface.csecond_derivative_uv"]}
{"id": "C285", "title": "A surface is evaluated inside its domain", "statement": "The results of derivative_u, derivative_v, the second derivatives, derivatives and normal at a parameter of the domain depend on the values of the surface on its domain only.", "quantifier": "all surfaces, domains and parameters of the domain", "why_tests_cant": "A surface that extends beyond its domain hides the defect.", "anchors": ["mmcore/geom/parametric.pyx: ParametricSurface.cderivative_u", "mmcore/geom/parametric.pyx: ParametricSurface.derivatives", "mmcore/geom/parametric.pyx: ParametricSurface.cnormal"]}
{"id": "C286", "title": "The tangent plane of a surface", "statement": "When the derivatives are not parallel, plane_at(u, v) is the point and a right-handed orthonormal frame whose first axis is along derivative_u and whose first two axes span the derivatives.", "quantifier": "all surface classes and parameters", "why_tests_cant": "Holds for every subclass that overrides the virtual methods.", "anchors": ["mmcore/geom/parametric.pyx: ParametricSurface.cplane_at"]}
{"id": "C287", "title": "Ruled surfaces", "statement": "The sides v = 0 and v = 1 are the two curves over their whole intervals, every line of constant u is straight, and derivative_v and second_derivative_vv are its derivatives.", "quantifier": "all pairs of curves and parameters", "why_tests_cant": "All curve classes.", "anchors": ["mmcore/geom/parametric.pyx: Ruled.cevaluate", "mmcore/geom/parametric.pyx: Ruled.cderivative_v", "mmcore/geom/parametric.pyx: Ruled.csecond_derivative_vv"]}
{"id": "C288", "title": "The u derivative of a ruled surface", "statement": "derivative_u is the derivative of evaluate in u, given that the derivatives of the two curves are right.", "quantifier": "all pairs of curves and parameters", "why_tests_cant": "Curves over the unit interval do not show the defect.", "anchors": ["mmcore/geom/parametric.pyx: Ruled.cderivative_u", "mmcore/geom/parametric.pyx: Ruled.cevaluate"]}
{"id": "C289", "title": "Bilinear surfaces", "statement": "The corners are the four given points, all first and second derivatives are the derivatives by the definition with limits, and every half space that contains the corners contains the patch.", "quantifier": "all corners and parameters", "why_tests_cant": "Identities and convexity for all inputs.", "anchors": ["mmcore/geom/parametric.pyx: BiLinear.cevaluate", "mmcore/geom/parametric.pyx: BiLinear.cderivative_u", "mmcore/geom/parametric.pyx: BiLinear.cderivative_v", "mmcore/geom/parametric.pyx: BiLinear.csecond_derivative_uv"]}
{"id": "C290", "title": "Differences of a callback surface", "statement": "The first and second derivatives the evaluator computes are exact for callbacks of degree at most two in each parameter, at every parameter.", "quantifier": "all such callbacks and parameters", "why_tests_cant": "Exactness over a family with twenty-seven coefficients.", "anchors": ["mmcore/geom/evaluator/surface_evaluator.pyx: c_derivative_u", "mmcore/geom/evaluator/surface_evaluator.pyx: c_derivative_v", "mmcore/geom/evaluator/surface_evaluator.pyx: c_derivative_uu", "mmcore/geom/evaluator/surface_evaluator.pyx: c_derivative_vv", "mmcore/geom/evaluator/surface_evaluator.pyx: c_derivative_uv", "mmcore/geom/evaluator/surface_evaluator.pyx: c_second_derivatives"]}
{"id": "C291", "title": "The normal of a callback surface", "statement": "derivatives_normal returns the two differences and the unit vector along their cross product, orthogonal to both; when they are parallel the division is by zero.", "quantifier": "all callbacks and parameters", "why_tests_cant": "All callbacks, including degenerate ones.", "anchors": ["mmcore/geom/evaluator/surface_evaluator.pyx: c_normal", "mmcore/geom/evaluator/surface_evaluator.pyx: derivatives_normal"]}
{"id": "C292", "title": "Points of a circle", "statement": "The evaluated points of a circle are exactly the points at the distance r from its origin; implicit is the distance to the origin minus r, so it is zero exactly on the circle and negative exactly inside; the gradient is the unit vector away from the origin.", "quantifier": "all circles of the plane, points and parameters", "why_tests_cant": "Both directions of an equivalence over all points.", "anchors": ["mmcore/geom/circle.py: Circle2D.evaluate", "mmcore/geom/circle.py: Circle2D.implicit", "mmcore/geom/circle.py: Circle2D.gradient"]}
{"id": "C293", "title": "The nearest point of a circle", "statement": "point_on_curve(v) gives the point of the circle nearest to v, at the distance |implicit(v)|; for the origin of the circle it divides by zero.", "quantifier": "all circles and points", "why_tests_cant": "A minimum over all points of the circle.", "anchors": ["mmcore/geom/circle.py: Circle2D.point_on_curve"]}
{"id": "C294", "title": "The parameter of the nearest point", "statement": "evaluate at the parameter returned by point_on_curve is the returned point.", "quantifier": "all circles and points", "why_tests_cant": "Points in the upper half plane do not show the defect.", "anchors": ["mmcore/geom/circle.py: Circle2D.point_on_curve", "mmcore/geom/circle.py: Circle2D.evaluate"]}
{"id": "C295", "title": "Common points of two circles", "statement": "For circles with different origins, circle_intersection2d returns exactly the points on both circles when there is one, and raises ValueError exactly when there is none; for equal circles it divides by zero.", "quantifier": "all pairs of circles of the plane", "why_tests_cant": "Completeness: no common point is missed, for all pairs.", "anchors": ["mmcore/geom/circle.py: circle_intersection2d"]}
{"id": "C296", "title": "Common points lie in the plane of the circles", "statement": "The third coordinate of the rows of circle_intersection2d is that of the circles, 0 for circles given by two coordinates.", "quantifier": "all pairs of circles", "why_tests_cant": "Circles centred on the x axis do not show the defect.", "anchors": ["mmcore/geom/circle.py: circle_intersection2d"]}
{"id": "C297", "title": "Tangents from a point", "statement": "The two points of tangents_lines are the points of the circle at which the tangents through the given point touch.", "quantifier": "all circles and points outside", "why_tests_cant": "Points on the diagonal through the origin do not show the defect.", "anchors": ["mmcore/geom/circle.py: tangents_lines"]}
{"id": "C298", "title": "Closest parameter of a circle", "statement": "closest_point_on_circle_2d(circle, pt) is the parameter of the point of the circle nearest to pt.", "quantifier": "all circles and points", "why_tests_cant": "One direction of four happens to be right.", "anchors": ["mmcore/geom/circle.py: closest_point_on_circle_2d"]}
{"id": "C299", "title": "Chord and height of an arc", "statement": "curvature_based_step(tol, r) is the chord whose height over the circle of radius r is tol, arc_height is its inverse in both directions, and step of a curve is the same for r the inverse of the curvature.", "quantifier": "all radii, tolerances up to the radius, chords up to the diameter", "why_tests_cant": "Inverse functions over all reals of an interval.", "anchors": ["mmcore/numeric/arc_length.py: curvature_based_step", "mmcore/numeric/arc_length.py: arc_height", "mmcore/numeric/arc_length.py: step"]}
{"id": "C300", "title": "Length of a straight line", "statement": "parametric_arc_length of a line traversed with constant speed is the parameter range times the speed.", "quantifier": "all lines in every dimension, ranges and steps", "why_tests_cant": "The error is below the usual tolerance when the step is small.", "anchors": ["mmcore/numeric/arc_length.py: parametric_arc_length"]}
{"id": "C301", "title": "Knot refinement keeps the curve", "statement": "knot_refinement with density 1 returns a sorted knot vector made of the old knots and the missing copies of the knots asked for, as many new control points as new knots, and every column of the control points keeps its B-spline function on the domain.", "quantifier": "all degrees from 1, knot vectors, control points, lists of knots to refine", "why_tests_cant": "Induction over the knots inserted and the in-place shifts of both arrays; a test covers single vectors.", "anchors": ["mmcore/geom/nurbs.pyx: knot_refinement"]}
{"id": "C302", "title": "Multiplicities after refinement", "statement": "After knot_refinement with density 1 every knot asked for has multiplicity degree (or its old one, if that was larger), and every other knot has its old multiplicity; without a list all inner knots are asked for.", "quantifier": "all degrees from 1, knot vectors, control points, lists of knots", "why_tests_cant": "Exact counts for all knots.", "anchors": ["mmcore/geom/nurbs.pyx: knot_refinement"]}
{"id": "C303", "title": "Refinement with nothing to insert", "statement": "If every knot asked for already has multiplicity degree, knot_refinement returns the curve unchanged.", "quantifier": "all knot vectors and lists of knots", "why_tests_cant": "A statement about all inputs of a class.", "anchors": ["mmcore/geom/nurbs.pyx: knot_refinement"]}
{"id": "C304", "title": "The list given to knot_refinement is not changed", "statement": "knot_refinement does not modify the array knot_list of its caller.", "quantifier": "all calls that return", "why_tests_cant": "The change is not visible for lists that are already sorted.", "anchors": ["mmcore/geom/nurbs.pyx: knot_refinement"]}
{"id": "C305", "title": "Density of a refinement", "statement": "Each unit of density above 1 adds the middle of every two neighbouring knots asked for; the result is refined as with density 1.", "quantifier": "all lists of knots and densities", "why_tests_cant": "Repeated knots and a third pass are needed to show the defects.", "anchors": ["mmcore/geom/nurbs.pyx: knot_refinement"]}
{"id": "C306", "title": "Knot removal", "statement": "knot_removal gives the control points of the same curve without the knot when the knot can be removed; in particular inserting a knot and removing it again gives the first control points.", "quantifier": "all curves and knots", "why_tests_cant": "The number of rows is right in every case.", "anchors": ["mmcore/geom/nurbs.pyx: knot_removal", "mmcore/geom/nurbs.pyx: point_distance"]}
{"id": "C307", "title": "A 2D box can be made from points", "statement": "BoundingBox2D built from an array of points is the smallest box with all of them; union and intersection of two 2D boxes give boxes.", "quantifier": "all arrays and boxes", "why_tests_cant": "A statement about every array.", "anchors": ["mmcore/api/bbox.py: BoundingBox2D.set_from_array", "mmcore/api/bbox.py: BaseBoundingBox.union", "mmcore/api/bbox.py: BoundingBox2D.intersection"]}
{"id": "C308", "title": "A 3D box made from points", "statement": "BoundingBox3D built from a non-empty list of points is the smallest box containing all of them.", "quantifier": "all non-empty lists of points", "why_tests_cant": "All arrays; least upper bound over all boxes.", "anchors": ["mmcore/api/bbox.py: BoundingBox3D.set_from_array", "mmcore/api/bbox.py: BaseBoundingBox.create_from_many_points"]}
{"id": "C309", "title": "Union of 3D boxes", "statement": "The union of two 3D boxes is the smallest box containing both.", "quantifier": "all boxes with ordered corners", "why_tests_cant": "Quantifies over all boxes that contain both.", "anchors": ["mmcore/api/bbox.py: BaseBoundingBox.union"]}
{"id": "C310", "title": "Growing a box", "statement": "expand and combine report success and leave the smallest box containing the old box and the point or the other box.", "quantifier": "all boxes with ordered corners, all points, in two and three dimensions", "why_tests_cant": "Quantifies over all boxes that contain both.", "anchors": ["mmcore/api/bbox.py: BoundingBox2D.expand", "mmcore/api/bbox.py: BoundingBox3D.expand", "mmcore/api/bbox.py: BoundingBox2D.combine", "mmcore/api/bbox.py: BoundingBox3D.combine"]}
{"id": "C311", "title": "Boxes that meet", "statement": "intersects and overlap answer True exactly when the two boxes have a common point.", "quantifier": "all boxes with ordered corners, in two and three dimensions", "why_tests_cant": "Touching faces, edges and corners in every dimension.", "anchors": ["mmcore/api/bbox.py: BoundingBox2D.intersects", "mmcore/api/bbox.py: BoundingBox3D.intersects", "mmcore/api/bbox.py: BoundingBox2D.overlap", "mmcore/api/bbox.py: BoundingBox3D.overlap"]}
{"id": "C312", "title": "Intersection of 3D boxes", "statement": "intersection returns None exactly when the boxes have no common point, otherwise the box of the common points.", "quantifier": "all boxes with ordered corners", "why_tests_cant": "Set equality for all boxes.", "anchors": ["mmcore/api/bbox.py: BoundingBox3D.intersection"]}
{"id": "C313", "title": "Points in a box", "statement": "contains answers True exactly for the points of the box.", "quantifier": "all boxes and points", "why_tests_cant": "The answer is right for points between the lower and upper z.", "anchors": ["mmcore/api/bbox.py: BoundingBox2D.contains", "mmcore/api/bbox.py: BoundingBox3D.contains"]}
{"id": "C314", "title": "The copy of a box", "statement": "copy returns a box with the same points.", "quantifier": "all boxes", "why_tests_cant": "A box that is a single point hides the defect.", "anchors": ["mmcore/api/bbox.py: BaseBoundingBox.copy", "mmcore/api/bbox.py: BaseBoundingBox.create_from_min_max_points"]}
{"id": "C315", "title": "The centre of a box", "statement": "The centroid of a 3D box is in the box and the box is symmetric about it.", "quantifier": "all boxes with ordered corners and all points", "why_tests_cant": "All points.", "anchors": ["mmcore/api/bbox.py: BaseBoundingBox.centroid"]}
{"id": "C316", "title": "Arithmetic in place", "statement": "After v += w, v -= w and v *= k the name v is bound to the changed vector.", "quantifier": "all vectors and numbers", "why_tests_cant": "A test of the components through a second name would pass.", "anchors": ["mmcore/api/_base_vectors.py: BaseVector.__iadd__", "mmcore/api/_base_vectors.py: BaseVector.__isub__", "mmcore/api/_base_vectors.py: BaseVector.__imul__"]}
{"id": "C317", "title": "Parallel vectors", "statement": "is_parallel answers True exactly for parallel vectors, up to the tolerance.", "quantifier": "all non-zero vectors", "why_tests_cant": "Unit vectors hide the defects.", "anchors": ["mmcore/api/_base_vectors.py: BaseVector.is_parallel", "mmcore/api/vectors.py: Vector2D.is_parallel"]}
{"id": "C318", "title": "Perpendicular vectors", "statement": "is_perpendicular answers True exactly for perpendicular vectors, independently of their lengths.", "quantifier": "all vectors", "why_tests_cant": "Short vectors are needed.", "anchors": ["mmcore/api/_base_vectors.py: BaseVector.is_perpendicular", "mmcore/api/vectors.py: Vector2D.is_perpendicular"]}
{"id": "C319", "title": "The length of a vector", "statement": "length is the non-negative number whose square is the sum of the squares of the components.", "quantifier": "all vectors", "why_tests_cant": "All vectors.", "anchors": ["mmcore/api/vectors.py: Vector3D.length", "mmcore/api/_base_vectors.py: BaseVector.length"]}
{"id": "C320", "title": "Products of matrices", "statement": "Applying a product of affine matrices is applying the factors one after the other, products of affine matrices are affine, to_translation gives the matrix that adds the vector, and a new matrix keeps every point.", "quantifier": "all affine matrices and vectors", "why_tests_cant": "Algebra over all matrices.", "anchors": ["mmcore/api/_base_vectors.py: BaseMatrix.__matmul__", "mmcore/api/_base_vectors.py: BaseMatrix.transform", "mmcore/api/vectors.py: Vector3D.to_translation", "mmcore/api/vectors.py: Vector2D.to_translation"]}
{"id": "C321", "title": "Vectors changed by a matrix", "statement": "v.transform(m) changes v to the product of m and v, and a matrix made from a list of cells has these cells.", "quantifier": "all vectors, matrices and lists of cells", "why_tests_cant": "All inputs.", "anchors": ["mmcore/api/vectors.py: Vector3D.transform", "mmcore/api/vectors.py: Vector2D.transform", "mmcore/api/vectors.py: Matrix3D.__init__"]}
{"id": "C322", "title": "Coordinate systems of a matrix", "statement": "get_as_coordinate_system returns the origin and axes given to set_with_coordinate_system.", "quantifier": "all origins and axes", "why_tests_cant": "Symmetric frames at the origin hide the defect.", "anchors": ["mmcore/api/vectors.py: Matrix3D.set_with_coordinate_system", "mmcore/api/vectors.py: Matrix3D.get_as_coordinate_system", "mmcore/api/vectors.py: Matrix2D.set_with_coordinate_system", "mmcore/api/vectors.py: Matrix2D.get_as_coordinate_system"]}
{"id": "C323", "title": "Mapping a coordinate system to another", "statement": "set_to_align_coordinate_systems makes the matrix that maps the first system to the second.", "quantifier": "all coordinate systems", "why_tests_cant": "All inputs.", "anchors": ["mmcore/api/vectors.py: Matrix3D.set_to_align_coordinate_systems", "mmcore/api/vectors.py: Matrix2D.set_to_align_coordinate_systems"]}
{"id": "C324", "title": "Turning about a point", "statement": "The matrix of set_to_rotation(angle, ..., origin) keeps the origin of the rotation.", "quantifier": "all angles, axes and origins", "why_tests_cant": "Rotations about zero hide the defect.", "anchors": ["mmcore/api/vectors.py: Matrix2D.set_to_rotation", "mmcore/api/vectors.py: Matrix3D.set_to_rotation"]}
{"id": "C325", "title": "Turning a vector of the plane to another", "statement": "Matrix2D.set_to_rotate_to makes a matrix that turns the first vector to a positive multiple of the second with the length of the first.", "quantifier": "all non-zero vectors", "why_tests_cant": "All pairs of vectors.", "anchors": ["mmcore/api/vectors.py: Matrix2D.set_to_rotate_to"]}
{"id": "C326", "title": "Turning a vector of space to another", "statement": "Matrix3D.set_to_rotate_to makes a matrix that turns the first vector to the direction of the second.", "quantifier": "all non-zero vectors", "why_tests_cant": "Vectors that are already parallel hide the defect.", "anchors": ["mmcore/api/vectors.py: Matrix3D.set_to_rotate_to"]}
{"id": "C327", "title": "Collections", "statement": "add, remove, clear, count, in and indexing of an ObjectCollection behave as for lists.", "quantifier": "all collections and sequences of calls", "why_tests_cant": "All sequences of calls.", "anchors": ["mmcore/api/_base.py: ObjectCollection"]}
{"id": "C328", "title": "A plane and a line", "statement": "intersect_with_line returns a point of the plane and of the line (of the segment, for a segment); it returns None only if the direction is parallel to the plane up to the tolerance or the line has no point on the plane.", "quantifier": "all planes, infinite lines and segments", "why_tests_cant": "All planes and lines.", "anchors": ["mmcore/api/plane.py: Plane.intersect_with_line"]}
{"id": "C329", "title": "A plane and a line that was moved", "statement": "After the end points of a segment are set again, intersect_with_line gives a point of the new segment.", "quantifier": "all planes and end points", "why_tests_cant": "Shifts along the line hide the defect.", "anchors": ["mmcore/api/plane.py: Plane.intersect_with_line", "mmcore/api/curves.py: Line3D.set"]}
{"id": "C330", "title": "Two planes", "statement": "intersect_with_plane returns the line of the common points of both planes.", "quantifier": "all planes", "why_tests_cant": "Planes through zero hide the defect.", "anchors": ["mmcore/api/plane.py: Plane.intersect_with_plane"]}
{"id": "C331", "title": "Planes with the same points", "statement": "is_coplanar answers True exactly for planes with the same points.", "quantifier": "all planes", "why_tests_cant": "Parallel planes hide the defect.", "anchors": ["mmcore/api/plane.py: Plane.is_coplanar"]}
{"id": "C332", "title": "Moving a plane", "statement": "After plane.origin = o the plane is evaluated at its new origin; the normal can be set.", "quantifier": "all planes and points", "why_tests_cant": "All planes.", "anchors": ["mmcore/api/plane.py: Plane.origin", "mmcore/api/plane.py: Plane.normal", "mmcore/api/plane.py: Plane.evaluate", "mmcore/api/plane.py: Plane.copy"]}
{"id": "C333", "title": "Parameters of two lines that meet", "statement": "line_line_intersection returns the parameters of the common point of two lines that are not parallel, and reports parallel lines.", "quantifier": "all lines", "why_tests_cant": "All pairs of lines.", "anchors": ["mmcore/api/curves.py: line_line_intersection"]}
{"id": "C334", "title": "line.intersect_with_line", "statement": "intersect_with_line reports two lines that meet within their ranges and gives the parameters of the common point.", "quantifier": "all lines", "why_tests_cant": "Segments in the plane z = 0 hide the defects.", "anchors": ["mmcore/api/curves.py: line_line_tsz", "mmcore/api/curves.py: BaseLine3D.intersect_with_line", "mmcore/api/curves.py: Line3D.intersect_with_line"]}
{"id": "C335", "title": "Collinear lines", "statement": "is_colinear answers True exactly for segments on one line.", "quantifier": "all segments", "why_tests_cant": "Unit segments hide half of the defect.", "anchors": ["mmcore/api/curves.py: Line3D.is_colinear", "mmcore/api/curves.py: BaseLine3D.is_colinear"]}
{"id": "C336", "title": "The circle through three points", "statement": "Circle2D.create_by_three_points returns a circle through the three points, and does so exactly when they are not on one line.", "quantifier": "all triples of points", "why_tests_cant": "All triples.", "anchors": ["mmcore/api/curves.py: circle2d_from_3pt", "mmcore/api/curves.py: Circle2D.create_by_three_points"]}
{"id": "C337", "title": "The points of a circle object", "statement": "Circle2D.evaluate gives points at the distance of the radius from the centre.", "quantifier": "all circles and angles", "why_tests_cant": "Circles about zero hide the defect.", "anchors": ["mmcore/api/curves.py: Circle2D.evaluate"]}
{"id": "C338", "title": "Adding geometry to a model", "statement": "After any sequence of additions every stored representation carries its own position; each addition returns a stored representation with the content hash of the added geometry (the geometry itself when checking is off); stored items are never moved or replaced; with checking on, no two stored items of one kind have the same hash.", "quantifier": "all sequences of additions of points, curves and surfaces, with and without checking, all hash functions", "why_tests_cant": "All sequences of additions.", "anchors": ["mmcore/topo/brep/__init__.py: BRepGeometry.add"]}
{"id": "C339", "title": "Points at the same place are stored once", "statement": "Two points closer together than any fixed distance are stored as one.", "quantifier": "all distances", "why_tests_cant": "The points that stay apart differ by less than any printed digit.", "anchors": ["mmcore/topo/brep/__init__.py: GeometryRepresentation.__hash__", "mmcore/topo/brep/__init__.py: BRepGeometry.add_point"]}
{"id": "C340", "title": "Adding vertices", "statement": "A vertex is returned for each added representation, with the hash of that representation; vertices are never removed; with checking on, vertices with equal hashes are not repeated.", "quantifier": "all sequences of representations", "why_tests_cant": "All sequences.", "anchors": ["mmcore/topo/brep/__init__.py: BRep.add_vertex"]}
{"id": "C341", "title": "Adding edges", "statement": "add_edge returns an edge on the given curve between the given vertices, in either direction.", "quantifier": "all models, curves and vertices", "why_tests_cant": "Needs a closed edge on a curve that is already used by an open one.", "anchors": ["mmcore/topo/brep/__init__.py: BRep.add_edge"]}
{"id": "C342", "title": "Adding faces", "statement": "add_face returns a face with the given surface and loops.", "quantifier": "all models, surfaces and lists of loops", "why_tests_cant": "All models.", "anchors": ["mmcore/topo/brep/__init__.py: BRep.add_face"]}
{"id": "C343", "title": "Adding shells and solids", "statement": "add_shell and add_solid add to the model.", "quantifier": "all models", "why_tests_cant": "All models.", "anchors": ["mmcore/topo/brep/__init__.py: BRep.add_shell", "mmcore/topo/brep/__init__.py: BRep.add_solid"]}
{"id": "C344", "title": "Hashing of topology and ends of edges", "statement": "Edges, loops and faces can be hashed and the parameters of the ends of an edge are computed.", "quantifier": "all edges, loops and faces, all hash functions", "why_tests_cant": "All of them fail.", "anchors": ["mmcore/topo/brep/__init__.py: Edge", "mmcore/topo/brep/__init__.py: Loop", "mmcore/topo/brep/__init__.py: Face", "mmcore/topo/brep/__init__.py: get_edge_ends_parameters", "mmcore/topo/brep/__init__.py: Edge.get_ends_parameters"]}
{"id": "C345", "title": "The symmetric table", "statement": "Reading an entry gives the last value written under the pair in either order, or KeyError; a row lists every node once with the last value written for the pair; the neighbours of a node are those it was written with, each once.", "quantifier": "all sequences of writes", "why_tests_cant": "All sequences.", "anchors": ["mmcore/topo/brep/__init__.py: Sparce"]}
{"id": "C346", "title": "Deleting from the symmetric table", "statement": "Deleting an entry deletes it in both orders.", "quantifier": "all tables and entries between different nodes", "why_tests_cant": "All tables.", "anchors": ["mmcore/topo/brep/__init__.py: Sparce"]}
{"id": "C347", "title": "The boundary loop of a surface", "statement": "nurbs_surf_to_brep gives a loop whose vertices are the ends of the boundary curves, each once, and in which each edge starts where the previous one ends.", "quantifier": "all regular patches of weight one with four different corners", "why_tests_cant": "All patches.", "anchors": ["mmcore/topo/brep/__init__.py: nurbs_surf_to_brep", "mmcore/numeric/intersection/ssx/boundary_intersection.py: extract_surface_boundaries"]}
{"id": "C348", "title": "Iso curves", "statement": "The point of an iso curve at a parameter is the point of the surface at the two parameters; a parameter outside the interval raises ValueError.", "quantifier": "all surfaces with valid knots, all parameters in the domain", "why_tests_cant": "Surfaces without weights hide the defect.", "anchors": ["mmcore/numeric/intersection/ssx/boundary_intersection.py: extract_isocurve"]}
{"id": "C349", "title": "Boundary points are reported once", "statement": "Any two reported boundary points are at least the tolerance apart; every reported point is one that was found; every found point is reported or within the tolerance of a reported one; order is kept.", "quantifier": "all intersection routines, surfaces and positive tolerances", "why_tests_cant": "All configurations of points.", "anchors": ["mmcore/numeric/intersection/ssx/boundary_intersection.py: find_boundary_intersections"]}
{"id": "C350", "title": "Boundary points in pairs", "statement": "Sorting boundary points splits them into sequences: every point is in exactly one; all but the last have two points; the second of each is a nearest one among the points not yet taken.", "quantifier": "all lists of points, all orders of walking a set", "why_tests_cant": "All lists and orders.", "anchors": ["mmcore/numeric/intersection/ssx/boundary_intersection.py: sort_boundary_intersections"]}
{"id": "C351", "title": "Parameters of boundary points", "statement": "The parameters reported for a boundary point on either surface give that point, and lie on the side it was found on.", "quantifier": "all regular surfaces, all sound curve-surface routines, all tolerances", "why_tests_cant": "All surfaces.", "anchors": ["mmcore/numeric/intersection/ssx/boundary_intersection.py: IntersectionPoint", "mmcore/numeric/intersection/ssx/boundary_intersection.py: find_boundary_intersections"]}
{"id": "C352", "title": "Points kept for tracing", "statement": "The points kept for tracing are in order, no two of them share a position or the parameters on either surface; no boundary point is lost when its parameters are right.", "quantifier": "all lists of boundary points", "why_tests_cant": "All lists.", "anchors": ["mmcore/numeric/intersection/ssx/_terminator.py: Terminator"]}
{"id": "C353", "title": "Taking the points one by one", "statement": "Popping a fresh terminator until it is empty gives every point with its parameters, once, in the order given.", "quantifier": "all lists of points", "why_tests_cant": "All lists.", "anchors": ["mmcore/numeric/intersection/ssx/_terminator.py: Terminator.pop"]}
{"id": "C354", "title": "Removing points", "statement": "A removed point is not found again, and all points can be removed one after another.", "quantifier": "all terminators with at least three points, and all with two points that are apart", "why_tests_cant": "All terminators.", "anchors": ["mmcore/numeric/intersection/ssx/_terminator.py: Terminator.remove", "mmcore/numeric/intersection/ssx/_terminator.py: Terminator.__delitem__", "mmcore/numeric/intersection/ssx/_terminator.py: Terminator.get_closest"]}
{"id": "C355", "title": "The order of points", "statement": "Point.compare orders points by x and then by y: it is a strict order whose ties are an equivalence.", "quantifier": "all triples of points", "why_tests_cant": "The points that break it are closer than the printed digits.", "anchors": ["mmcore/numeric/algorithms/sweep_line/point.py: Point.compare", "mmcore/numeric/algorithms/sweep_line/point.py: Point.__eq__", "mmcore/numeric/algorithms/sweep_line/point.py: Point.__lt__"]}
{"id": "C356", "title": "Which side of a segment", "statement": "orientation is the sign of the turn from the segment to the point, zero exactly on the line, and changes sign when the segment is reversed.", "quantifier": "all segments and points, also vertical and trivial ones", "why_tests_cant": "All positions.", "anchors": ["mmcore/numeric/algorithms/sweep_line/segment.py: Segment.orientation"]}
{"id": "C357", "title": "The line of a segment", "statement": "Slope and shift describe the line through the two ends; a vertical segment has neither; a segment is trivial exactly when its ends coincide.", "quantifier": "all segments", "why_tests_cant": "All segments.", "anchors": ["mmcore/numeric/algorithms/sweep_line/segment.py: Segment.__init__", "mmcore/numeric/algorithms/sweep_line/segment.py: Segment.isTrivial"]}
{"id": "C358", "title": "The common point of two lines", "statement": "intersectionOfLines gives nothing exactly for parallel lines and otherwise the one point on both lines.", "quantifier": "all pairs of proper segments", "why_tests_cant": "Needs ends that are nearly but not exactly equal.", "anchors": ["mmcore/numeric/algorithms/sweep_line/segment.py: Segment.intersectionOfLines"]}
{"id": "C359", "title": "The order of segments at the sweep point", "statement": "Comparing two segments in both orders at the sweep point gives opposite answers, and the order is transitive.", "quantifier": "all sweep points, all segments of which one starts there", "why_tests_cant": "Needs a segment that ends exactly at the sweep point.", "anchors": ["mmcore/numeric/algorithms/sweep_line/segment.py: Segment.compare"]}
{"id": "C360", "title": "The test of neighbours", "statement": "For two neighbours the test of computeIntersection holds exactly when the two segments have a common point, and then intersectionOfLines gives it.", "quantifier": "all segments that are not parallel, the first start below the second and the starts different; for the point no ends within the tolerance", "why_tests_cant": "All positions.", "anchors": ["mmcore/numeric/algorithms/sweep_line/sweep_intersector.py: SweepIntersector.computeIntersection", "mmcore/numeric/algorithms/sweep_line/segment.py: Segment.intersectionOfLines"]}
{"id": "C361", "title": "The bound of the coordinates", "statement": "The bound found before the sweep is the least power of two above the absolute values of all coordinates; the search always ends.", "quantifier": "all lists of segments", "why_tests_cant": "All lists.", "anchors": ["mmcore/numeric/algorithms/sweep_line/sweep_intersector.py: SweepIntersector.initializeStructures"]}
{"id": "C362", "title": "The points of a segment in order", "statement": "The points reported for a segment are those found on it apart from its ends, each once, in the order from its first end to its second.", "quantifier": "all segments with different ends and all lists of points", "why_tests_cant": "All lists.", "anchors": ["mmcore/numeric/algorithms/sweep_line/sweep_intersector.py: SweepIntersector.inorderExtend", "mmcore/numeric/algorithms/sweep_line/sweep_intersector.py: find_intersection"]}
{"id": "C363", "title": "The sides of a polygon", "statement": "polygon_segments gives one side per corner, from the corner to the next one, the last one back to the first.", "quantifier": "all polygons", "why_tests_cant": "All lengths.", "anchors": ["mmcore/numeric/algorithms/sweep_line/sweep_intersector.py: polygon_segments"]}
{"id": "C364", "title": "Sorted sequences act like lists", "statement": "After any sequence of insert, insertAt, delItem, reverseItems and changeInf the sequence shows exactly the list these calls describe: items in order, length, smallest node, successor and predecessor of every node, the nodes returned, and lookup while the keys are in order.", "quantifier": "all sequences of calls that meet the documented preconditions, all random heights", "why_tests_cant": "All sequences of calls and all tower heights.", "anchors": ["mmcore/numeric/algorithms/sweep_line/sortseq.py: SortSeq.insert", "mmcore/numeric/algorithms/sweep_line/sortseq.py: SortSeq.insertAt", "mmcore/numeric/algorithms/sweep_line/sortseq.py: SortSeq.delItem", "mmcore/numeric/algorithms/sweep_line/sortseq.py: SortSeq.reverseItems", "mmcore/numeric/algorithms/sweep_line/sortseq.py: SortSeq.changeInf", "mmcore/numeric/algorithms/sweep_line/sortseq.py: SortSeq.succ", "mmcore/numeric/algorithms/sweep_line/sortseq.py: SortSeq.pred", "mmcore/numeric/algorithms/sweep_line/sortseq.py: SortSeq.lookup", "mmcore/numeric/algorithms/sweep_line/sortseq.py: SortSeq.min"]}
{"id": "C365", "title": "Locating a key", "statement": "locate gives the first node whose key is not below the given one, or nothing if there is none.", "quantifier": "all sequences that calls can produce while the keys are in order, all keys", "why_tests_cant": "Needs a key that is present and not the smallest.", "anchors": ["mmcore/numeric/algorithms/sweep_line/sortseq.py: SortSeq.locate"]}
{"id": "C366", "title": "LU factors reproduce the matrix", "statement": "When LU_decomposition of a square matrix finishes with finite values, the permutation lists every row once, the product of the unit lower and the upper triangle left in the array is the original matrix with its rows in that order, and no multiplier exceeds 1 in magnitude.", "quantifier": "every size, every square matrix, every previous content of the permutation array", "why_tests_cant": "Tests compare a few small matrices; row exchanges in the middle of the elimination interact with the multipliers already stored.", "anchors": ["mmcore/numeric/matrix/cmatrix.h:81-125"]}
{"id": "C367", "title": "LU_solve solves the system", "statement": "For every non-singular matrix and every right-hand side, decomposing and then LU_solve gives a vector that satisfies all equations exactly, whatever the uninitialised local array and the output array held before.", "quantifier": "every size, every non-singular matrix, every right-hand side", "why_tests_cant": "Needs the factorisation for every size and all right-hand sides.", "anchors": ["mmcore/numeric/matrix/cmatrix.h:81-166"]}
{"id": "C368", "title": "invert_matrix gives the two-sided inverse", "statement": "For a non-singular matrix invert_matrix writes the matrix that multiplied from either side gives the identity; for a singular matrix it always divides by zero (the result then holds non-finite numbers although 1 is returned).", "quantifier": "every size above 0, every square matrix", "why_tests_cant": "Singular matrices of all sizes and the left inverse cannot be enumerated.", "anchors": ["mmcore/numeric/matrix/cmatrix.h:169-213", "mmcore/numeric/matrix/__init__.pyx:17-37"]}
{"id": "C369", "title": "inv leaves its argument unchanged", "statement": "Computing the inverse of an array does not change the array.", "quantifier": "every invertible array", "why_tests_cant": "A test that only looks at the result does not see it.", "anchors": ["mmcore/numeric/matrix/__init__.pyx:17-37", "mmcore/numeric/matrix/cmatrix.h:169-213"]}
{"id": "C370", "title": "The reduced Hessian keeps exactly the free variables", "statement": "form_reduced_hessian gives the square matrix of the entries of the Hessian whose row and column are both marked 0 in the active set, in increasing order.", "quantifier": "every size, every active set, every matrix", "why_tests_cant": "Index bookkeeping for all subsets.", "anchors": ["mmcore/numeric/newton/bounded.py:24-33"]}
{"id": "C371", "title": "Row reduction and back substitution", "statement": "row_reduce turns every square matrix into an upper triangular one whose diagonal entries are at least 1e-15 in magnitude, and back_solve on it returns the exact solution of that triangular system (it never takes its early exit).", "quantifier": "every size, every square matrix, every right-hand side", "why_tests_cant": "Needs the elimination invariant for every size, with exchanges and regularisation.", "anchors": ["mmcore/numeric/newton/bounded.py:35-88"]}
{"id": "C372", "title": "Row reduction followed by back_solve solves the given system", "statement": "After row_reduce, back_solve(rhs) returns the solution of the original system with right-hand side rhs.", "quantifier": "every matrix and right-hand side", "why_tests_cant": "A diagonal or already triangular test matrix hides it.", "anchors": ["mmcore/numeric/newton/bounded.py:35-88"]}
{"id": "C373", "title": "project_to_bounds gives the nearest point of the box", "statement": "project_to_bounds returns a point of the box whose every coordinate is the value of the interval nearest to the given one, no point of the box is closer in the Euclidean sense, and a point of the box is returned unchanged", "quantifier": "every dimension, box and point", "why_tests_cant": "a test tries a few points of a few boxes", "anchors": ["mmcore/numeric/newton/bounded.py:193-199"]}
{"id": "C374", "title": "a successful bounded line search meets the strong Wolfe conditions inside the box", "statement": "When line_search reports success the step is positive, the direction is a descent direction, the point is the projection of x + a d to the box and lies in it, the sufficient decrease and the curvature condition hold there, and for c1 > 0 the objective has strictly decreased", "quantifier": "every objective, gradient, point, direction, box, constants and iteration limit", "why_tests_cant": "the zoom phase is reached on few inputs and its invariants hold for arbitrary functions", "anchors": ["mmcore/numeric/newton/bounded.py:202-279"]}
{"id": "C375", "title": "a successful strong Wolfe search meets both conditions", "statement": "When line_search_strong_wolfe reports success the step is positive, the point is x + a d, both strong Wolfe conditions hold there and for c1 > 0 the objective has strictly decreased", "quantifier": "every objective, gradient, point, direction, constants and iteration limit", "why_tests_cant": "the zoom phase is reached on few inputs and its invariants hold for arbitrary functions", "anchors": ["mmcore/numeric/newton/bounded.py:107-187"]}
{"id": "C376", "title": "backtracking accepts the first sufficient halving", "statement": "line_search_backtrack returns x + a d for the largest a among alpha, alpha/2, alpha/4, ... (at most max_iter of them) with sufficient decrease and reports True; when none has it returns x itself and reports False", "quantifier": "every objective, gradient, point, direction, initial step and limit", "why_tests_cant": "a test sees one objective", "anchors": ["mmcore/numeric/newton/bounded.py:92-104"]}
{"id": "C377", "title": "bounded Newton stays in the box and never gets worse", "statement": "A point returned by bounded_newtons_method lies in the box, and it is either the initial point projected to the box or has a strictly smaller objective than that", "quantifier": "every objective, gradient, Hessian, norm, matrix inverse, tolerances, limit and box", "why_tests_cant": "holds for every function, also where the Hessian is singular and the search falls back to the gradient", "anchors": ["mmcore/numeric/newton/bounded.py:282-381"]}
{"id": "C378", "title": "bounded Newton keeps a minimiser", "statement": "Started at a minimiser of the objective over the box with at least one iteration, bounded_newtons_method returns exactly that point", "quantifier": "every objective, gradient, Hessian, norm, matrix inverse, tolerances, limit and box", "why_tests_cant": "holds for minimisers on the boundary where the gradient does not vanish, for every function", "anchors": ["mmcore/numeric/newton/bounded.py:282-381"]}
{"id": "C379", "title": "bounded Newton finds a minimum over the box", "statement": "When bounded_newtons_method returns a point this is a minimum of the objective over the box", "quantifier": "every objective with a constant gradient, box and start", "why_tests_cant": "the failing inputs are whole families, a test shows one", "anchors": ["mmcore/numeric/newton/bounded.py:202-255", "mmcore/numeric/newton/bounded.py:329-381"]}
{"id": "C380", "title": "set operations on plane shapes", "statement": "A point is inside (negative value) the union of two shapes iff inside one of them, the intersection iff inside both, the inverse iff its value was positive, a minus b iff inside a with a positive value of b; the rectangle contains exactly the points strictly between its corners, and opXor is negative iff one value is negative and the other positive", "quantifier": "every shape function and point", "why_tests_cant": "infinitely many points and functions", "anchors": ["mmcore/geom/implicit/dc/__init__.py:62-127", "mmcore/geom/implicit/dc/__init__.py:154-167"]}
{"id": "C381", "title": "zero brackets a change of sign", "statement": "When exactly one end of a segment is inside the shape, zero returns a point of the segment within 1/2048 of its length of a place where the shape changes from inside to outside; when neither end is inside it never returns", "quantifier": "every shape function and segment", "why_tests_cant": "the bisection depends on the values of an arbitrary function at up to eleven points", "anchors": ["mmcore/geom/implicit/dc/__init__.py:228-250"]}
{"id": "C382", "title": "contours of a cell", "statement": "For every cell contours returns; every side whose ends differ is used by exactly one contour end and no other side is used; each contour point lies on its side next to a change of sign; each contour has the inside of the shape on its left where it enters and where it leaves the cell", "quantifier": "every shape function and cell", "why_tests_cant": "sixteen sign patterns times arbitrary functions; in particular zero is never called where it would not return", "anchors": ["mmcore/geom/implicit/dc/__init__.py:203-259", "mmcore/geom/implicit/dc/__init__.py:396-413"]}
{"id": "C383", "title": "contours of neighbouring cells join", "statement": "In two cells with a common side a contour ends there in one of them iff one starts there in the other, at the same point", "quantifier": "every shape function and pair of cells sharing a full side", "why_tests_cant": "a global property over all pairs of sign patterns", "anchors": ["mmcore/geom/implicit/dc/__init__.py:203-259", "mmcore/geom/implicit/dc/__init__.py:396-413"]}
{"id": "C384", "title": "bilinear interpolation over a cell", "statement": "interpolate gives the value of the shape at the four corners, reproduces every bilinear function everywhere, and fails exactly for a cell of width or height zero", "quantifier": "every shape, cell and point", "why_tests_cant": "infinitely many inputs", "anchors": ["mmcore/geom/implicit/dc/__init__.py:295-305"]}
{"id": "C385", "title": "merge joins exactly the flat groups of four cells", "statement": "On a quadtree fitting its square merge returns a tree fitting the same square; every border cell is an old one or is flat (the shape is within 0.001 of the interpolated value at the centre and the middles of the sides); no four sibling cells remain that could be merged; merging again changes nothing", "quantifier": "every shape and quadtree", "why_tests_cant": "trees of any depth", "anchors": ["mmcore/geom/implicit/dc/__init__.py:262-309"]}
{"id": "C386", "title": "foldTree adds up over the square", "statement": "Folding an additive quantity over empty, full and border cells gives the quantity of the whole square, whatever the tree", "quantifier": "every tree, square and additive quantity", "why_tests_cant": "trees of any depth", "anchors": ["mmcore/geom/implicit/dc/__init__.py:181-200"]}
{"id": "C387", "title": "dual edges across a vertical line", "statement": "For two quadtrees of side-by-side squares edgeProcH gives an edge for exactly the pairs of border cells that share a piece of the common side; trees from build_tree2d and collapse2d fit their squares", "quantifier": "every pair of trees and feature function", "why_tests_cant": "trees of different depth on both sides", "anchors": ["mmcore/geom/implicit/dc/__init__.py:362-376", "mmcore/geom/implicit/tree/collapse2d.py:81-191"]}
{"id": "C388", "title": "dual edges across a horizontal line", "statement": "For two quadtrees of squares on top of each other edgeProcV gives edges for the pairs of border cells that share a piece of the common side", "quantifier": "every pair of trees and feature function", "why_tests_cant": "trees of different depth on both sides", "anchors": ["mmcore/geom/implicit/dc/__init__.py:379-393"]}
{"id": "C389", "title": "trav visits the cells selected by the filter", "statement": "trav calls the callback exactly for the selected nodes, by default the border cells", "quantifier": "every tree and filter", "why_tests_cant": "trees of any depth", "anchors": ["mmcore/geom/implicit/dc/__init__.py:170-180"]}
{"id": "C390", "title": "nd_max returns the larger in absolute value and leaves its arguments alone", "statement": "nd_max returns elementwise the argument with the larger absolute value and does not change its arguments", "quantifier": "every pair of numbers or arrays", "why_tests_cant": "aliasing is invisible in the returned value", "anchors": ["mmcore/geom/implicit/dc/__init__.py:14-35"]}
{"id": "C391", "title": "Knot span search", "statement": "find_span returns the index of the knot span that holds the parameter: p <= s < n and U[s] <= u < U[s+1] inside the domain, the last span at or beyond the right end, the first span at or before the left end; the bisection always terminates.", "quantifier": "every degree, every sorted knot vector with at least 2p+2 entries (repeated knots allowed), every parameter", "why_tests_cant": "Termination of the bisection with repeated knots and the end rules depend on arbitrary knot vectors.", "anchors": ["mmcore/geom/curves/curve_utils.py:13-36"]}
{"id": "C392", "title": "Basis functions of the curve utilities", "statement": "calc_basis_functions returns the non-zero B-spline basis functions (Cox-de Boor) at a parameter of the span.", "quantifier": "every degree p >= 1, every sorted knot vector, every parameter of a span", "why_tests_cant": "The fault leaves degree one right and keeps the sum at one, so a partition-of-unity test passes.", "anchors": ["mmcore/geom/curves/curve_utils.py:39-55"]}
{"id": "C393", "title": "The end of the curve can be evaluated", "statement": "calc_b_spline_point at the right end of the domain returns the value of the curve.", "quantifier": "every degree p >= 2, every sorted knot vector with at least 2p+2 entries, every list of control points", "why_tests_cant": "The failure is a nan with a warning, only at one parameter.", "anchors": ["mmcore/geom/curves/curve_utils.py:39-79"]}
{"id": "C394", "title": "Point of a B-spline curve", "statement": "calc_b_spline_point returns the combination of the p+1 control points of the span with the basis functions, coordinates weighted.", "quantifier": "every degree, every sorted knot vector, every list of control points, every parameter inside the domain", "why_tests_cant": "The result is a plausible point near the control polygon for all inputs.", "anchors": ["mmcore/geom/curves/curve_utils.py:58-79"]}
{"id": "C395", "title": "Binomial coefficient in the curve utilities", "statement": "calcKoverI(k, i) is the binomial coefficient of k over i.", "quantifier": "all i <= k", "why_tests_cant": "The 64-bit product first overflows at 21!, far above the orders a test would use.", "anchors": ["mmcore/geom/curves/curve_utils.py:82-85"]}
{"id": "C396", "title": "Derivatives of a rational curve", "statement": "calc_rational_curve_derivatives returns arrays CK with sum over i <= k of C(k,i) w_i CK_{k-i} = A_k for every order k, that is, the derivatives of the quotient A/w.", "quantifier": "every list of at most 21 float arrays with a non-zero first weight", "why_tests_cant": "The recurrence is a relation between all orders at once.", "anchors": ["mmcore/geom/curves/curve_utils.py:216-230"]}
{"id": "C397", "title": "Derivatives of a NURBS curve", "statement": "calcNURBSDerivatives returns the derivatives of the curve.", "quantifier": "every degree, knot vector, control points, parameter and order; every table of basis function derivatives", "why_tests_cant": "The theorem says that no input at all works.", "anchors": ["mmcore/geom/curves/curve_utils.py:88-90", "mmcore/geom/curves/curve_utils.py:163-185", "mmcore/geom/curves/curve_utils.py:216-230"]}
{"id": "C398", "title": "Point of a NURBS surface in the curve utilities", "statement": "calcSurfacePoint and calc_surface_point return the point of the surface.", "quantifier": "all degrees >= 1, sorted knot vectors, complete grids of control points, parameters inside the domain", "why_tests_cant": "The theorem says that no input at all works.", "anchors": ["mmcore/geom/curves/curve_utils.py:93-109", "mmcore/geom/curves/curve_utils.py:192-213"]}
{"id": "C399", "title": "Elementwise minimum and maximum", "statement": "nd_min and nd_max return the elementwise minimum and maximum of two numbers or arrays and leave their arguments unchanged.", "quantifier": "all numbers and all flat arrays of equal length", "why_tests_cant": "The change of the argument is seen only when the argument is looked at afterwards.", "anchors": ["mmcore/numeric/routines/__init__.py:17-44"]}
{"id": "C400", "title": "Most similar values", "statement": "find_similar(value, values) returns, in increasing order, exactly the positions whose distance to value is the smallest of all; an empty list is a ValueError.", "quantifier": "all numbers and non-empty lists", "why_tests_cant": "Ties occur only for special inputs.", "anchors": ["mmcore/numeric/routines/__init__.py:47-49"]}
{"id": "C401", "title": "Cartesian product", "statement": "cartesian_product returns exactly the rows that take one element of each array, each combination once, the last position changing fastest; its number of rows is the product of the lengths.", "quantifier": "every non-empty list of arrays", "why_tests_cant": "Statement over all numbers of arrays.", "anchors": ["mmcore/numeric/routines/__init__.py:52-58"]}
{"id": "C402", "title": "Grids of parameters", "statement": "uvs and point_grid_2d return the same grid in row order: all pairs of the two linear spacings. The first and last entries are the corners of the bounds and every entry lies within them.", "quantifier": "all counts and bounds, whatever memory the array starts from", "why_tests_cant": "Uninitialised memory and all counts at once.", "anchors": ["mmcore/numeric/routines/__init__.py:8-14", "mmcore/numeric/routines/_routines.pyx:9-27"]}
{"id": "C403", "title": "Insertion into a tuple", "statement": "insert_in_tuple returns the tuple with the value inserted and all other elements in order; the position follows Python's rule for slices, also for negative and too large indices.", "quantifier": "all tuples, indices and values", "why_tests_cant": "Statement over all integers as index.", "anchors": ["mmcore/numeric/routines/__init__.py:67-68"]}
{"id": "C404", "title": "Splitting one dimension", "statement": "split_dim splits the dimension at the index into the given factor and the quotient, before or after, without moving elements; a factor that does not divide is a ValueError, an index outside the shape an IndexError.", "quantifier": "all well-formed arrays, indices and positive factors", "why_tests_cant": "The wrong case needs an index below minus the number of dimensions.", "anchors": ["mmcore/numeric/routines/__init__.py:83-116"]}
{"id": "C405", "title": "Adding and removing dimensions", "statement": "add_dim splits the given factors off the first dimension when their product divides it and is a ValueError otherwise; remove_dim merges the first dimensions, and undoes add_dim.", "quantifier": "all well-formed arrays and positive factors", "why_tests_cant": "Induction over the list of factors.", "anchors": ["mmcore/numeric/routines/__init__.py:71-80", "mmcore/numeric/routines/__init__.py:119-120"]}
{"id": "C406", "title": "Splitting into parts", "statement": "split_by_parts cuts an array into one piece per part, with these lengths, and loses nothing.", "quantifier": "all arrays and non-empty lists of parts", "why_tests_cant": "Statement over all lists of parts.", "anchors": ["mmcore/numeric/routines/__init__.py:123-128"]}
{"id": "C407", "title": "Division of an interval", "statement": "divide_interval returns consecutive intervals of the given step that start at the start and together are exactly the interval.", "quantifier": "all intervals and positive steps", "why_tests_cant": "The last interval is right whenever the step divides the length, as in simple tests.", "anchors": ["mmcore/numeric/routines/__init__.py:170-172"]}
{"id": "C408", "title": "Cubic curve of four points", "statement": "cubic_spline is the cubic Bezier curve of its control points (repeated linear interpolation): it starts at the first, ends at the last and stays in every box that contains the four.", "quantifier": "all control points and parameters (0 to 1 for the box)", "why_tests_cant": "An identity of polynomials.", "anchors": ["mmcore/numeric/routines/__init__.py:135-168"]}
{"id": "C409", "title": "Appending columns", "statement": "column_concat appends a number or a vector to every row of a matrix, and a matrix with as many rows row by row.", "quantifier": "all matrices and second arguments", "why_tests_cant": "The wrong case needs a vector as long as the number of rows.", "anchors": ["mmcore/numeric/routines/__init__.py:175-179"]}
{"id": "C410", "title": "Values up to a tolerance", "statement": "unique_with_tolerance returns the means of groups of the sorted values in which neighbours differ by at most the tolerance, different groups being further apart; results differ by more than the tolerance, do not depend on the order of the values, and every value is within the tolerance of a result.", "quantifier": "all non-empty lists and tolerances (positive for the refutation)", "why_tests_cant": "Grouping is a relation between all values.", "anchors": ["mmcore/geom/curves/curve_bool.py:23-45"]}
{"id": "C411", "title": "Boolean operation on curves", "statement": "curve_boolean_operation returns for union the pieces outside the other curve, for intersection those inside, for difference the outer pieces of the first and the inner pieces of the second; union and intersection together use each piece once; a piece is inside when its ray crosses the other curve an odd number of times.", "quantifier": "every list of intersections, every splitting, every set of crossings", "why_tests_cant": "The pieces and crossings are arbitrary.", "anchors": ["mmcore/geom/curves/curve_bool.py:47-151"]}
{"id": "C412", "title": "Order of the Runge-Kutta step", "statement": "One step of rk45_vector is exact for right-hand sides that are polynomials of time: its fourth-order value up to degree 3, its fifth-order value up to degree 4; the difference of the two is h^5/2080 times the coefficient of t^4.", "quantifier": "all vectors of polynomials, times, states and step sizes", "why_tests_cant": "An identity in all coefficients at once; a wrong digit in one of thirty constants changes results only slightly.", "anchors": ["mmcore/numeric/integrate/rk45.pyx:6-36"]}
{"id": "C413", "title": "Linear systems under one Runge-Kutta step", "statement": "For y' = A y the two values of a step are the Taylor polynomials of exp(hA) y of degree 4 and 5, plus h^5/104 A^5 y and h^6/2080 A^6 y.", "quantifier": "all dimensions, linear maps, states and step sizes", "why_tests_cant": "An identity of matrix polynomials for all dimensions.", "anchors": ["mmcore/numeric/integrate/rk45.pyx:6-36"]}
{"id": "C414", "title": "Times and values of the integration", "statement": "When rk45_vector returns, its times increase from t0 by at most hmax each and end exactly at t1, and each value comes from the one before by a fifth-order step whose error estimate is at most tol; for t1 <= t0 it returns empty arrays.", "quantifier": "all right-hand sides, norms, tolerances and positive step bounds", "why_tests_cant": "Statement over every run of the adaptive loop.", "anchors": ["mmcore/numeric/integrate/rk45.pyx:38-60"]}
{"id": "C415", "title": "The integration ends", "statement": "rk45_vector returns for every right-hand side.", "quantifier": "all right-hand sides and positive step bounds", "why_tests_cant": "No finite test shows an endless loop.", "anchors": ["mmcore/numeric/integrate/rk45.pyx:45-58"]}
{"id": "C416", "title": "Integration of polynomials", "statement": "For a right-hand side that is a polynomial of time of degree at most 4 every value returned is the exact solution at its time; for degree at most 3 rk45_vector always returns, with the last time t1.", "quantifier": "all vectors of polynomials, intervals, tolerances and step bounds", "why_tests_cant": "Induction over the run.", "anchors": ["mmcore/numeric/integrate/rk45.pyx:5-60"]}
{"id": "C417", "title": "Priority queue under any program", "statement": "After any sequence of insert and delMin calls that never deletes from an empty queue, the nodes returned and the nodes left are exactly the nodes inserted, size() is the difference of the counts, and min() is a node of least key (None exactly for the empty queue).", "quantifier": "all sequences of calls, all keys, any values", "why_tests_cant": "Statement over all interleavings of calls.", "anchors": ["mmcore/numeric/algorithms/sweep_line/priority_queue.py:30-83"]}
{"id": "C418", "title": "Insertion and deletion in the priority queue", "statement": "insert adds exactly the new node; delMin removes exactly the node that min() shows, which has a least key, and fails with IndexError on an empty queue; both keep the heap order.", "quantifier": "all heaps, keys and values", "why_tests_cant": "Induction over the paths of the binary heap.", "anchors": ["mmcore/numeric/algorithms/sweep_line/priority_queue.py:40-68"]}
{"id": "C419", "title": "The priority queue sorts", "statement": "Emptying the queue returns its nodes in order of their keys, whatever the order of insertion.", "quantifier": "all lists of nodes, all heaps", "why_tests_cant": "Statement over all lists.", "anchors": ["mmcore/numeric/algorithms/sweep_line/priority_queue.py:40-68"]}
{"id": "C420", "title": "Support vector", "statement": "support_vector returns the first of the vertices whose dot product with the direction is the largest.", "quantifier": "all vertices and directions", "why_tests_cant": "Ties and the start value matter only for special inputs.", "anchors": ["mmcore/geom/vec/svm.py:12-49"]}
{"id": "C421", "title": "Closest pair of two curves", "statement": "proximity_points_curve_curve returns the first of the minima found with the least squared distance, and is a ValueError when none was found; the function minimised is non-negative and zero exactly where the curves meet.", "quantifier": "all curves, all results of the search for minima", "why_tests_cant": "The minima are arbitrary.", "anchors": ["mmcore/numeric/intersection/ccx/ccd.py:5-80"]}
{"id": "C422", "title": "Colour components", "statement": "A colour created or set with given components returns them.", "quantifier": "all components not all zero", "why_tests_cant": "The theorem says that no colour at all works.", "anchors": ["mmcore/api/color.py:6-109"]}
{"id": "C423", "title": "Tessellation of any surface", "statement": "tessellate_surface prepares a triangulation for every surface, with 2(u+v) boundary points, the points of the trims and (u-1)(v-1) inner points.", "quantifier": "all surfaces, trims, counts", "why_tests_cant": "Every surface object is covered.", "anchors": ["mmcore/topo/mesh/tess.py:84-154"]}
{"id": "C424", "title": "Numbers of divisions", "statement": "Given counts are used; a count that is not given is 25.", "quantifier": "all counts, with and without density", "why_tests_cant": "All combinations of given and missing counts.", "anchors": ["mmcore/topo/mesh/tess.py:93-94", "mmcore/topo/mesh/tess.py:101-124"]}
{"id": "C425", "title": "Segments of the tessellation", "statement": "In every successful call the boundary and each trim lie one after the other in the vertices, the segments close up exactly these loops, and every segment joins existing vertices.", "quantifier": "all calls, any number of trims", "why_tests_cant": "Induction over the trims.", "anchors": ["mmcore/topo/mesh/tess.py:48-53", "mmcore/topo/mesh/tess.py:128-154"]}
{"id": "C426", "title": "Boundary of the parameter rectangle", "statement": "The 2(u+v) boundary points lie on the boundary of the parameter rectangle and are distinct.", "quantifier": "all rectangles and counts", "why_tests_cant": "All counts.", "anchors": ["mmcore/topo/mesh/tess.py:128-132"]}
{"id": "C427", "title": "Inner points of the tessellation", "statement": "The inner points are the grid of (u-1)(v-1) points one step inside the parameter rectangle.", "quantifier": "all rectangles and counts", "why_tests_cant": "All rectangles.", "anchors": ["mmcore/topo/mesh/tess.py:133-135", "mmcore/topo/mesh/tess.py:147"]}
{"id": "C428", "title": "Polygons with holes", "statement": "prepare_args joins the points of each boundary and each hole to a closed loop.", "quantifier": "all lists of polygons", "why_tests_cant": "Induction over the polygons, all lengths.", "anchors": ["mmcore/topo/mesh/triangle/tri.py:185-210"]}
{"id": "C429", "title": "Hole points", "statement": "For holes without a repeated end point the point marking a hole is the mean of its vertices and lies in every half-plane that contains them.", "quantifier": "all holes and half-planes", "why_tests_cant": "All half-planes.", "anchors": ["mmcore/topo/mesh/triangle/tri.py:200-204"]}
{"id": "C430", "title": "Names of the arrays of Triangle", "statement": "Translating the names of a dictionary to those of the C library and back returns the dictionary; translating fails with KeyError exactly when a name is unknown.", "quantifier": "all dictionaries", "why_tests_cant": "All names.", "anchors": ["mmcore/topo/mesh/triangle/tri.py:3-28", "mmcore/topo/mesh/triangle/tri.py:81", "mmcore/topo/mesh/triangle/tri.py:85"]}
{"id": "C431", "title": "Edges and rays of the Voronoi diagram", "statement": "The edges are the finite ones in their order, each ray has the origin and the direction of the same infinite edge, and together they are all edges.", "quantifier": "all diagrams", "why_tests_cant": "Induction over the edges.", "anchors": ["mmcore/topo/mesh/triangle/tri.py:155-161"]}
{"id": "C432", "title": "Trims that end on the boundary", "statement": "match_edge_cases returns the polygon exactly when it is closed or both its ends are near the same side of the rectangle, and otherwise returns nothing.", "quantifier": "all polygons, rectangles and tolerances", "why_tests_cant": "All rectangles and tolerances.", "anchors": ["mmcore/topo/mesh/tess.py:56-72"]}
{"id": "C433", "title": "Newton's method with a constraint", "statement": "newtons_method_with_constraints returns the point after the first small step of the iteration, and the point satisfies the constraint.", "quantifier": "all functions, gradients, Hessians, starting points, tolerances and iteration limits", "why_tests_cant": "Induction over the iterations.", "anchors": ["mmcore/numeric/newton/__init__.py:10-86"]}
{"id": "C434", "title": "Failure of Newton's method with a constraint", "statement": "The method works for linear constraints and returns None when it does not converge.", "quantifier": "all functions and starting points", "why_tests_cant": "The theorem covers every constraint with singular Hessian.", "anchors": ["mmcore/numeric/newton/__init__.py:40-86"]}
{"id": "C435", "title": "Colours from floats", "statement": "A colour made of three floats has the nearest integers to 255 times the floats as components, from 0 to 255 for floats from 0 to 1; the floats of a colour give the same components again.", "quantifier": "all floats and colours", "why_tests_cant": "All rational components.", "anchors": ["mmcore/geom/materials/__init__.py:29-47"]}
{"id": "C436", "title": "Colours with more than three components", "statement": "The first three components of a longer sequence are r, g and b.", "quantifier": "all sequences", "why_tests_cant": "All lengths.", "anchors": ["mmcore/geom/materials/__init__.py:29-43"]}
{"id": "C437", "title": "Hexadecimal form of colours", "statement": "from_hex of the hexadecimal form of a colour is the colour, and its decimal value is 65536 r + 256 g + b.", "quantifier": "all components", "why_tests_cant": "All components.", "anchors": ["mmcore/geom/materials/__init__.py:53-55", "mmcore/geom/materials/__init__.py:66-67", "mmcore/geom/materials/__init__.py:106-109"]}
{"id": "C438", "title": "Segments of a spline", "statement": "spline_curve_bvh cuts the curve into count segments of equal parameter length (ceil(end - start) * degree when no count is given), each with the points of the curve at its ends, and together they cover the interval.", "quantifier": "all curves, intervals, degrees and counts", "why_tests_cant": "All counts.", "anchors": ["mmcore/geom/curves/spline.py:16-32"]}
{"id": "C439", "title": "Shape of a grid of control points", "statement": "control_points_grid_shape returns the numbers of knots minus degree minus one when their product is the number of control points, a ValueError otherwise, and never negative numbers.", "quantifier": "all integers", "why_tests_cant": "All integers.", "anchors": ["mmcore/geom/utils.py:4-49"]}
{"id": "C440", "title": "Implicit form of a curve", "statement": "The implicit form of a curve starts the point inversion at the first of its 100 samples closest to the point, and returns the vector from the point to the curve point found together with its length.", "quantifier": "all curves and points", "why_tests_cant": "All curves.", "anchors": ["mmcore/geom/curves/implicitly.py:18-29"]}
{"id": "C441", "title": "Marching along an implicit curve yields corrected steps from start to end", "statement": "marching_implicit_curve_points always answers for a given limit. Its first point is the corrected starting point, every next point is the corrected point of the one before moved by step along the tangent, and its last point is the corrected end point. If fewer points than the limit were marched, the last marched point is within half a step of the end point. Every property shared by all corrected points holds of all returned points.", "quantifier": "all implicit functions, corrections, tangents, norms, steps, limits, start and end points", "why_tests_cant": "tests march along a few curves with one step", "anchors": ["mmcore/numeric/marching.py:26-78"]}
{"id": "C442", "title": "The march along an implicit curve respects max_points", "statement": "marching_implicit_curve_points returns at most max_points points.", "quantifier": "all curves and limits", "why_tests_cant": "tests use closed curves that end before the limit", "anchors": ["mmcore/numeric/marching.py:65-78"]}
{"id": "C443", "title": "Marching along an intersection curve stays within its limits", "statement": "marching_intersection_curve_points always answers for a given limit with at least one and at most max(max_points, 1) points. The first point is the corrected starting point. Every next point is the corrected point of the one before moved by plus or minus step along the unit tangent there. No point after the first is within half a step of the end point. Only the last point can be outside the bounds. With parallel gradients at the start, or a start outside the bounds, the start alone is returned.", "quantifier": "all pairs of implicit functions, corrections, bounds, steps, limits", "why_tests_cant": "tests march along a few pairs of surfaces", "anchors": ["mmcore/numeric/marching.py:81-151"]}
{"id": "C444", "title": "The raster of an implicit curve keeps exactly the grid points near the curve", "statement": "With a gradient given and general_implicit set, raster_algorithm_2d returns exactly the corrected points of those grid points with non-zero gradient for which |f| / |gradient| is below gamma times the larger of the two cell sizes.", "quantifier": "all functions, gradients, windows, resolutions and gammas", "why_tests_cant": "tests look at one picture", "anchors": ["mmcore/numeric/marching.py:155-184"]}
{"id": "C445", "title": "The raster of an implicit curve works with its default arguments and without general_implicit", "statement": "raster_algorithm_2d finds points of a function of two coordinates when no gradient is given, and when general_implicit is off.", "quantifier": "all functions, windows and resolutions", "why_tests_cant": "the default gradient and general_implicit=False are not tested", "anchors": ["mmcore/numeric/marching.py:157-160", "mmcore/numeric/marching.py:169-172"]}
{"id": "C446", "title": "The plane of a surface that lies between the two sets is recognised", "statement": "The bounding plane test of SpatialSeparabilityTest succeeds whenever a plane with the given normal separates the two sets of points.", "quantifier": "all normals and sets of points", "why_tests_cant": "tests use surfaces far apart, where the box test answers first", "anchors": ["mmcore/numeric/intersection/separability/spatial.py:56-60"]}
{"id": "C447", "title": "The linear program of the separating plane test finds a plane", "statement": "separating_plane_test finds a plane whenever one separates the two sets, and the plane that it returns leaves the two sets on its two sides up to epsilon.", "quantifier": "all sets of points, norms, solutions and epsilons", "why_tests_cant": "tests see the solution of one solver only", "anchors": ["mmcore/numeric/intersection/separability/spatial.py:62-104"]}
{"id": "C448", "title": "Separability answers True only with a reason", "statement": "spatial_separability returns True exactly when the two sets of points have a gap along a coordinate or the support-point test (gjk) finds them disjoint. are_separable returns True only with a gap along a coordinate, with a plane of one of the two surfaces between the sets, or with a plane that separates them up to epsilon, as the returned reason says.", "quantifier": "all non-empty sets of points, gjk results, normals and solutions", "why_tests_cant": "tests use a few pairs of surfaces", "anchors": ["mmcore/numeric/intersection/separability/spatial.py:106-115", "mmcore/numeric/intersection/separability/spatial.py:146-208"]}
{"id": "C449", "title": "Separability of two hulls in the plane is decided by their sides", "statement": "For two non-empty hulls without repeated neighbouring vertices, ch2d_sep answers True exactly when for some direction along or across a side of one of the hulls all points of one hull come before or at all points of the other. So True always comes with a non-zero direction along which the hulls do not overlap.", "quantifier": "all hulls and all norms that are positive on non-zero vectors", "why_tests_cant": "tests try a few polygons", "anchors": ["mmcore/numeric/intersection/separability/spherical.py:188-242"]}
{"id": "C450", "title": "Overlapping hulls are never called separable", "statement": "ch2d_sep answers False for hulls that overlap, in particular for a hull and itself.", "quantifier": "all hulls", "why_tests_cant": "tests use hulls without repeated vertices", "anchors": ["mmcore/numeric/intersection/separability/spherical.py:193-195", "mmcore/numeric/intersection/separability/spherical.py:218-242"]}
{"id": "C451", "title": "The separating circles test finds separating circles", "statement": "separating_circles_test answers True when a great circle separates the two sets of points.", "quantifier": "all sets of points and every solver that succeeds when there is a minimum", "why_tests_cant": "the test is not covered", "anchors": ["mmcore/numeric/intersection/separability/spherical.py:59-79", "mmcore/numeric/intersection/separability/spherical.py:82-161"]}
{"id": "C452", "title": "The smallest wedge contains the points", "statement": "find_smallest_wedge returns the first and the last angle of the smallest wedge that contains all points.", "quantifier": "all non-empty lists of angles", "why_tests_cant": "tests look at angles in a half-plane, where the largest gap is around the back", "anchors": ["mmcore/numeric/intersection/separability/spherical.py:19-31"]}
{"id": "C453", "title": "Wedges called apart are disjoint", "statement": "If spherical_bounding_box_test calls two wedges apart, then no point of one set is in the wedge of the other.", "quantifier": "all angles", "why_tests_cant": "tests use sets in one half-plane", "anchors": ["mmcore/numeric/intersection/separability/spherical.py:34-56"]}
{"id": "C454", "title": "The central projection is the intersection with the ground plane and is injective on the sphere", "statement": "center_projection_to_xy returns the one point of height zero on the line through the origin of projection and the point, if the two have different heights. From the north pole it maps different points of the unit sphere other than the pole to different points.", "quantifier": "all points with rational coordinates", "why_tests_cant": "tests project a few points", "anchors": ["mmcore/numeric/intersection/separability/spherical.py:164-186"]}
{"id": "C455", "title": "Projection on a vector in the plane", "statement": "projection(a, b) is projection_param_t(a, b) times b and the difference from a is orthogonal to b, for every non-zero b.", "quantifier": "all vectors in the plane", "why_tests_cant": "tests use axis directions", "anchors": ["mmcore/numeric/intersection/separability/spherical.py:198-217"]}
{"id": "C456", "title": "Newton's method for systems takes at most max_iter Newton steps and solves linear systems exactly", "statement": "newtons_method22 returns the end of a sequence of at most max_iter Newton steps from the initial point. With fewer steps the last one was below the tolerance or the Jacobian at the answer was singular. For a linear system with a regular matrix the answer is an exact solution whenever max_iter is positive.", "quantifier": "all systems, solvers, norms, tolerances, limits, starting points", "why_tests_cant": "tests run one system", "anchors": ["mmcore/numeric/newton/constrained.py:9-34"]}
{"id": "C457", "title": "Sequential quadratic programming solves quadratic programs with linear constraints", "statement": "For a quadratic objective with linear equality constraints and a regular system, every answer of sqp_method satisfies the constraints exactly, and the gradient of the objective there is a combination of the gradients of the constraints, for every tolerance, starting point, multipliers and positive number of iterations.", "quantifier": "all dimensions, matrices, starting points, tolerances and numbers of iterations", "why_tests_cant": "tests run one problem", "anchors": ["mmcore/numeric/newton/constrained.py:137-197"]}
{"id": "C458", "title": "Vertices of a .node file are read as written", "statement": "Reading a .node section with n plane points, any number of attributes and any number of boundary markers gives exactly these points, attributes and markers, attributes and markers being absent when there are none; the file counts from zero exactly when its first number is 0; the tokens after the section are left for the next reader.", "quantifier": "all points, attributes, markers, first numbers and following tokens", "why_tests_cant": "tests read a few sample files", "anchors": ["mmcore/topo/mesh/triangle/data.py:31-57"]}
{"id": "C459", "title": "Triangles of an .ele file are read as written", "statement": "Reading an .ele section counted from zero or from one gives the triangles counted from zero, for every number of nodes per triangle, together with exactly the attributes written; the tokens after the section are left.", "quantifier": "all triangles, numbers of nodes, attributes and both ways of counting", "why_tests_cant": "tests read a few sample files", "anchors": ["mmcore/topo/mesh/triangle/data.py:59-76"]}
{"id": "C460", "title": "A .poly file is read as written", "statement": "Reading a .poly file with vertices, segments and holes gives the vertices with attributes and markers, the segments counted from zero with their markers, and the holes, leaving the tokens of the regions.", "quantifier": "all vertices, segments, markers, holes and both ways of counting", "why_tests_cant": "tests read a few sample files", "anchors": ["mmcore/topo/mesh/triangle/data.py:78-107", "mmcore/topo/mesh/triangle/data.py:176-180"]}
{"id": "C461", "title": "Edge files are read", "statement": "Reading an .edge file gives its edges and rays counted from zero; a file of a triangulation, which has edges and no rays, is read too.", "quantifier": "all edge files with a positive number of edges", "why_tests_cant": "tests read only Voronoi files", "anchors": ["mmcore/topo/mesh/triangle/data.py:119-137"]}
{"id": "C462", "title": "A missing neighbour stays -1", "statement": "Reading a .neigh file gives the neighbours counted from zero, with -1 for a missing neighbour.", "quantifier": "all neighbour tables", "why_tests_cant": "tests use files counted from zero", "anchors": ["mmcore/topo/mesh/triangle/data.py:158-168"]}
{"id": "C463", "title": "Largest areas and regions are read as written", "statement": "Reading an .area file gives the areas written; reading the regions of a .poly file gives the point, the attribute and the largest area of every region.", "quantifier": "all areas and regions", "why_tests_cant": "tests read one file with regions of one number", "anchors": ["mmcore/topo/mesh/triangle/data.py:109-117", "mmcore/topo/mesh/triangle/data.py:139-156"]}
