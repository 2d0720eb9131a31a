# Formal model of mmcore: design and trusted base

Prover: Rocq/Coq 8.16.1. Sources under `rocq/theories`, logical name `Verif`.
For every area `X` there are four kinds of file:

* `XModel.v`: executable Gallina transcription of the functions of /repo, no proofs,
  each definition citing file and lines;
* `XSpec.v`: what the properties mean, written without the model's helper functions (small areas
  keep these few definitions at the head of `XProps.v`);
* `XProofs*.v` (and `NurbsInsert.v`, `NurbsSplit.v`): lemmas;
* `XProps.v`: only the property theorems, each closed by `exact lemma.` and followed by
  `Print Assumptions`, with an `Example` showing the hypotheses are met by a non-trivial case.

Theorems ending in `_refuted` exhibit inputs on which the code violates the property as
written; theorems ending in `_partial` prove only part of it, `MANIFEST.json` says which part.

Shared libraries: `Common.v` (results and errors, lists), `ListLib.v`, `ArrZ.v` (arrays indexed by
integers), `QcLib.v` (exact rationals and the tactics `qlra`, `qnra`), `SumLib.v` (finite sums),
`DerivLib.v` (derivatives of functions on the rationals).

## Numbers

C/NumPy doubles are modelled by exact numbers:

* code that only compares (sorting, boxes, trees) is modelled over `Z` or `Q`/`Qc`, or over an arbitrary
  decidable total order; comparisons of non-NaN doubles are exact, so nothing is lost except NaN;
* code that computes (intervals, splines, monomials) is modelled over exact rationals `Qc`
  (canonical rationals, Leibniz equality, computable).
  Rounding, overflow, infinities and NaN are NOT modelled unless a file says so.

Python exceptions are explicit error values; loops without a syntactic bound take fuel and
return an error value when it runs out, and the theorems exclude that case.

## Trusted base

* The Coq kernel, `vm_compute` included.
* What `Print Assumptions` lists per theorem: nothing.  Every property theorem is reported as "Closed under the
  global context"; the list is at the end of this file.
* `coqchk` additionally sees the seven constants of the module type `Coq.ssr.ssrunder.Under_rel`
  (`Under_rel`, `Under_rel_from_rel`, `Under_relE`, `Over_rel`, `over_rel`, `over_rel_done`, `under_rel_done`) in the
  standard library's compiled files, which are loaded with `lia`/`lra`; no theorem depends on them.
* That the model says what the code does: the definitions were transcribed by hand from the text of /repo, which
  was neither built nor run.  The semantics given to Python, NumPy, Cython and C constructs is part of the trusted base.
  In particular: exact numbers for doubles; unbounded integers for C ints; an out-of-range access is `IndexError`
  where the code raises it and also where the compiled code would have undefined behaviour (bounds checks off);
  a division by zero is `ZeroDivision` where C or NumPy would yield inf/nan.

## Wrong programs

`seeded/LOG.jsonl` has one line per deliberate edit of a model, made in a scratch copy.

* `failed` is measured: the statements at which the scratch build stopped.
* In the first 480 lines the build stopped at the first failing lemma of each file.  There `theorems_lost` lists the
  theorems written down beforehand, kept only if their proof uses (by name, transitively) a lemma in `failed`.
  `expected_not_confirmed` lists those written down beforehand for which this does not hold: the edit was caught, but
  these lines do not show that the named theorem catches it.
* From line 481 on, every failing lemma is admitted in the scratch copy and the build goes on.  `theorems_lost` is then
  measured: the theorems whose `Print Assumptions` is no longer closed.
* The 35 edits with `expected_not_confirmed` are repeated from line 481 on.  For 27 of them every named theorem is lost.
  The other eight do not confirm it at their first repetition:
  * `convert`, `monomial_partial_derivatives`, `deriv_cpt`, `find_max_row`: the build could not be carried to the end.
  * `poly_union`, `poly_difference`: the named theorem is in `failed`, but the script then did not read `PolyProps2.v`.
  * `last_index`: another theorem of C94 is lost, `C94_stops_in_range_partial` is not.
  * `isclose`: only an example failed; `C153_close_knots_refuted` was added for this.
* Lines with a `note` have no measured `theorems_lost`: a proof stopped checking or ran over 180 seconds and the rest
  could not be built.  Where `failed` names a lemma, the edit is noticed, but not shown to be noticed by a theorem.  Where
  `failed` is empty or has only a stop after 180 seconds, the line shows nothing.
* Lines with `"result": "survived"` are edits that nothing noticed when first tried.  `slice_at` is harmless, since
  `Z.to_nat` clips.  `orthonormalize` and `handle3` showed theorems that said too little; `C230_zero_vector` and
  `C238_winding` were added for them.
* The edits for which `C153_close_knots_refuted`, `C230_zero_vector`, `C238_winding` and `C430_names_forward` were added
  (the last for `terms (two names alike)`, where only an example failed) have not been tried again with these theorems.
* No edits have been tried on the areas Sph (C449-C457) and Tld (C458-C463).
* A theorem counted as lost has a proof that no longer checks.  This does not by itself show that its statement is false
  of the edited model.

## Areas, properties and proof method

| area (files `XModel.v`, `XSpec.v`, `XProofs*.v`, `XProps.v`) | properties | how they are proved |
|---|---|---|
| UnionFind | C01-C02, C52 | parent/rank tables as lists; invariant (parents in range, rank strictly increases along parents); refinement to the equivalence closure of the union pairs, induction on the history; groups by reduction to it |
| Avl | C03-C05, C53 | wrapper objects with stored height/balance as an inductive tree; BST + AVL + stored-field invariant by induction; refinement to finite sets; refutations for stored data |
| Cdll | C06-C08, C54-C56 | heap of nodes with next/previous; representation predicate "ring of xs"; each operation maps ring xs to ring (spec xs); refutations for front insertion and remove |
| Kd | C09-C12, C66-C68 | structural induction; multiset permutation, split invariant, exactness of pruning, logarithmic depth; refutations by computed witness |
| Rtree | C13, C95-C97 | node records; invariants of insertion and splitting; soundness of search; refutation of completeness |
| Skip | C14-C15 | towers as heap nodes with successor arrays, heights from an oracle; level lists sorted and nested; refutation of removal |
| Interval | C16-C18, C69-C74 | arithmetic by case analysis on signs; refutations |
| Aabb | C19-C21, C75-C78 | min/max folds, slab loop invariant, lattice reasoning |
| Sort | C22-C23, C79-C80 | arrays as lists, Lomuto partition with swaps, unique loops; loop invariants, permutation, sortedness |
| Bez | C24-C26, C81-C86 | Bernstein/monomial algebra for all degrees; sums |
| Dac | C27-C28, C87-C94 | search loops over an arbitrary function on fuel; interval invariants, geometric shrinking; refutations by witness |
| Bvh | C29-C32, C98-C107 | boxes, recursive median split, traversals; induction on trees; permutation; refutations |
| Nurbs | C33-C36, C42, C50, C57-C60 | find_span binary search invariant; in-place triangle of basis_funs against the Cox-de Boor recursion; curve_point as the NURBS formula |
| Knot | C33-C34, C42, C146-C155 | span searches, basis functions by Cox-de Boor, de Boor triangle, knot merging as multisets; uniqueness of the interpolation system |
| NurbsEdit | C37, C40-C41, C51, C61-C65 | Boehm's identity for one insertion and iteration; reversal, affine knot maps, splitting into pieces by multiplicity p |
| Ser | C38, C143-C145 | byte layout of the serialised curve; codec round trip over words |
| Cache | C39, C141-C142 | heap of curves and shared arrays, memo tables; invariant over all programs; refutations for copy and setters |
| Impl | C43-C44, C108-C113 | sign functions, quadtree/octree cells; induction on depth; order reasoning |
| Poly | C45-C46, C114-C125 | even-odd crossing counts, shoelace sums, half-plane clipping, Greiner-Hormann style tracing on fuel; invariants over traces |
| Step | C47-C49, C126-C133 | character-level parser, run-length knots, entity table; induction on the printed value; history invariant |
| Oct | C134-C140 | box tilings; induction on the tree; termination by size halving |
| Surf | C156-C164 | tensor products of the curve results; row-wise and column-wise reduction to knot insertion and splitting; decomposition by induction on the sorted distinct knots |
| Der | C165-C172 | derivatives as quadratic-error linear approximations on a knot span, unique there; the table of coefficients of ders_basis_funs by a double invariant, the recursion of derivative control points by induction; two-dimensional Leibniz rule and its unique solution for the quotient |
| Romb | C173-C175 | loop invariant identifying the rows with the Romberg table; exactness by an expansion of the trapezoidal error in even powers of the step (strong induction over the degree, binomial theorem) and elimination of one power per column |
| Pln | C176-C192 | Gaussian elimination with its pivot search as loops over matrices; invariant 'same solutions' gives soundness and uniqueness; failure analysis by zero columns; vector identities by ring, orthogonality arguments by Cramer's rule and Gram determinants; square roots as a function argument with hypotheses on the arguments used |
| Vec | C193-C214 | loops over arrays of any dimension reduced to finite sums by two loop lemmas (accumulating, row by row); uninitialised memory as an argument; Gram determinants for independence and least squares; induction over polygons; elementary functions as arguments with hypotheses on the arguments used |
| Ipt | C215-C235 | Newton iterations over arbitrary functions: a step lemma from the two by two solver, an invariant 'reached by one step' through the loop, induction on the passes; loops without bound take a number of passes; exactness for affine functions by orthogonality; QR factors for the frames; what no execution can return by induction on the passes |
| Gjk | C236-C245 | invariant over the passes: every simplex point is a difference of two vertices and every pass has a direction with the three cases of its length; separation from a negative support product; convex combinations from the four determinants; the same run with both shapes moved; case analysis over the regions of a triangle with a lower bound for every point of it |
| Mol | C246-C259 | Cramer's rule for soundness and completeness; scaling arguments for the refutations; loop invariant by rows; small-step semantics of the parallel loop with invariants over all schedules and explicit racing schedules; invariant of the search stack (every point of the segment in a node's box stays in the clipped piece), clipping to a flat box |
| Prm | C260-C274 | orthogonal projection on the axis as the minimum of a quadratic; Cauchy-Schwarz for tightness and Lipschitz bounds; histories of assignments reduced to the last values by induction; expansion in an orthonormal frame for surjectivity; field identities for the generated temporaries |
| Par | C275-C291 | derivatives by the definition with limits (linearity, composition with an affine map, uniqueness); polynomial identities; exactness of differences on quadratic functions; Gram-Schmidt frames; a surface altered outside the domain as a counterexample |
| Circ | C292-C300 | angles as pairs of cosine and sine; Cauchy's inequality in the plane; Heron's identity for the half chord; completeness by decomposition along the line of centres; a loop invariant for the weighted sum |
| Ref | C301-C306 | a loop invariant that carries the virtual knot vector and rows of the curve after each inserted knot, each step being Boehm's rule by the blossom argument; uniqueness of ascending lists; an invariant on the weight column for removal |
| Api | C307-C337 | case analysis on the comparisons of corners; least elements among all boxes; matrix algebra over Qc by ring; exact characterisations (iff) of the inputs on which the defective methods are right; the solution of the 2 by 2 system behind line_line_tsz |
| Brep | C338-C354 | the hash is an arbitrary function of the hashed content (theorems that need it assume no clash between the two contents at hand), -0.0 of rounded coordinates is kept as a sign, -0.0 in control points is not; a loop is compared by the identity of the object as its generated comparison would be; the order of a Python set, the curve-surface routine and the KDTree are arguments; np.round is exact round-half-even; invariants over sequences of additions and writes, first-occurrence filters, greedy pairing, and the tensor product formulas of the surface area for iso curves |
| Swp | C355-C363 | coordinates are exact rationals and EPS2 is 1e-10; the identity of a Python object is the number it got when it was made; a vertical segment has no slope and no shift instead of infinities; the raised Exception and the assertion are ValueError; the main loop of findIntersections and the priority queue are not modelled; sign reasoning over turns of three points, induction over the list for the bound and for insertion in order |
| Sseq | C364-C365 | sorted sequences on the heap of the skip list; a node is its address, keys are integers, the random height is an argument; the specification is a plain list with one rule per call; invariant with forward paths and matching backward links on every level, splice and cut-out lemmas, induction over the reversed part and over the history |
| Lu | C366-C372 | C arrays are row-major lists, loops write one entry at a time; numbers are exact rationals; a division by zero, which C continues with non-finite numbers, stops the model with ZeroDivision; uninitialised arrays are arguments; create_matrix, free_matrix, set_matrix_from_array2d and printing are not modelled; loop invariants relating the array to a matrix function, the partial factorisation after each column, explicit kernel vector when a column has no pivot |
| Bnd | C373-C379 | points are lists of exact rationals; the objective, gradient, Hessian, norm and matrix inverse are arbitrary function arguments; the two strong Wolfe searches share one definition with the trial point as an argument; warnings, full_return and the compiled hessian/gradient helpers are not modelled; invariant of the zoom (both ends non-negative, their sum positive), induction on the iterations of the Newton loop |
| Dc | C380-C390 | shapes are arbitrary functions over exact rationals; quadtrees are those of ImplModel; the recursion of zero takes fuel; the feature point of a cell (deriv, feature: square root, lstsq) is a function argument of the dual edges; circle, the sample shapes and printing are not modelled; bisection invariant, all sixteen sign patterns of the table, nested induction over two trees |
| Cu | C391-C398 | indices are natural numbers (too short knot vectors, which reach negative indices, are not modelled); a division by zero in the basis functions stops the model (numpy: inf or nan); arrays carry their dtype; the table of basis function derivatives (calc_basis_function_derivatives) is a function argument; bisection measure, loop invariants giving the exact (wrong) values, Leibniz sums |
| Rt | C399-C411 | flat arrays of equal length in nd_min and nd_max; an array is its elements in C order with its shape, a negative entry of a shape is an error; np.c_ joins rows of equal number; intersections, splitting and evaluation of curves are function arguments; nested loop invariants, division with remainder for row indices, groups of a sorted list, permutations of filters |
| Rk | C412-C416 | vectors are lists, the right-hand side returns a vector of the length of the state; norm and fourth root are function arguments, no property of the root is needed; tol / 0 follows numpy (inf, nan); the example run at the end of the file is not modelled; polynomials in a linear map as coefficient lists, loop invariants, archimedean bound on the number of steps |
| Pq | C417-C422 | heapq is modelled by the algorithm of the standard library (_siftdown, _siftup), not by its contract; keys are exact rationals; find_all_minima is a function argument; heaps with one exception as loop invariants, permutations of updated lists |
| Tess | C423-C432 | np.allclose of points, measured lengths and the curve of a trim are arguments; Triangle itself is not modelled; the segments of a list of loops placed one after the other, induction over the loops |
| Ncs | C433-C440 | np.linalg.inv (None for LinAlgError), gradient, hessian, norm, point inversion and curves are function arguments; an unbound local variable is a NameError; hexadecimal digits are their values; invariants over the iterations |
| Mch | C441-C448 | norm, cross product, curve_point, intersection_curve_point, tangent, linprog and gjk are function arguments; sys.maxsize is a limit given as argument; bounding boxes of empty sets are errors; chains of related neighbours as loop invariants, sums of a linear form for the mean |
| Sph | C449-C457 | arctan2 is replaced by given angles, 2 pi, norms, np.linalg.solve and the success of linprog are arguments; vectors that are not numbers are None and comparisons with them fail; the projection to the sphere, the removal of the intersection point and sph_sep are left out; largest gap by sortedness, block matrices by splitting the product |
| Tld | C458-C463 | a token is the number it stands for; comments and the splitting into tokens and lines are left out; negative counts are errors; round trips against a writer of the files in the specification |
| Binom | (used by other areas) | finite sweep of the table against Pascal's recursion |
| Pickle | (used by other areas) | state reduction and restoration; refutation for weights |

## Which parts of the code are modelled

Per area, the source lines cited by the definitions of the model (paths below `mmcore/`).  What a model leaves out of these lines is said in the comment at the head of its file and beside the definition.

* **Aabb**: `numeric/_aabb.pyx` 25-31, 50-79, 84-89, 94-100, 107-115, 131-137, 143-177, 187-251, 257-311, 318-387, 394-448, 454-495; `numeric/aabb.py` 15-21, 49-56
* **Api**: `api/_base.py` 128-191; `api/_base_vectors.py` 24-28, 30-34, 42-46, 54-58, 66-73, 75-80, 132-138, 140-146, 157-164, 247-253, 255-262, 264-272; `api/bbox.py` 19-20, 39-40, 42-45, 68-80, 134-141, 183-185, 188-283, 286-417; `api/curves.py` 38-66, 171-196, 198-212, 225-226, 229-233, 243-245, 252-334, 337-362, 379-382, 395-396, 412-413, 415-421, 433, 477-485, 488-492, 495-499, 502-506, 522-523, 552-620, 626-636, 642-650, 667-686; `api/plane.py` 13-42, 109-120, 122-124, 126-128, 138-146, 148-159, 161-162, 164-165, 167-178, 200-207, 217-218, 229-237; `api/vectors.py` 13-154, 170-175, 195-202, 222-229, 234-237, 239-244, 289-292, 301-314, 317-333, 336-350, 390-406, 408-416, 418-429, 431-448, 470-484, 499-519, 538-558, 560-578, 580-592, 602-608; `numeric/_aabb.pyx` 84-89
* **Avl**: `ds/tree/avl.py` 114-122, 125-142, 144-145, 147-209, 211-227, 229-246, 248-259, 261-272, 274-284, 286-343, 345-360, 368-369
* **Bez**: `geom/curves/knot.py` 907-946; `numeric/monomial.py` 11-25, 29-63, 66-97, 101-131, 136-145, 147-167, 169-177, 179-213, 217-242, 245-258, 294-298, 302-303
* **Binom**: `numeric/binom.pyx` 8-968, 972-973
* **Bnd**: `numeric/newton/bounded.py` 92-104, 107-162, 165-187, 193-199, 202-255, 282-381
* **Brep**: `geom/nurbs.pyx` 1177-1197; `geom/parametric.pyx` 76-85; `numeric/intersection/ssx/_terminator.py` 24-121, 141-154; `numeric/intersection/ssx/boundary_intersection.py` 18-39, 41-224, 227-302; `topo/brep/__init__.py` 23-36, 39-41, 65, 81-84, 87-90, 92-93, 102-104, 115-119, 134-167, 169-192, 207-213, 221-230, 257-272, 275-283, 295-325
* **Bvh**: `geom/bvh/__init__.py` 23-30, 32-36, 38-39, 53-55, 57-58, 60-67, 69-70, 72-80, 82-93, 95-119, 121-122, 127-141, 143-160, 192-198, 297-304, 307-349, 351-378, 382-395, 401-423, 425-467, 469-489, 491-547, 549-585, 593-604, 606-621, 623-633, 635-661, 663-681, 683-690, 692-700, 726-756
* **Cache**: `geom/nurbs.pxd` 435-441; `geom/nurbs.pyx` 1144, 1151-1171, 1197-1204, 1206-1218, 1249-1262, 1281-1296, 1304-1309, 1314-1317, 1371-1373, 1383-1406, 1412-1423, 1499-1502, 1534-1544, 1716-1748, 1754-1789, 1792-1796, 1872-1887, 1968-1981; `geom/parametric.pyx` 81-94
* **Cdll**: `ds/cdll/cdll.py` 54-56, 74-99, 110-120, 128-140, 142-160, 171-188, 192-209, 211-216, 218-227, 235-242, 244-267; `ds/cdll/node.py` 1-5
* **Circ**: `geom/circle.py` 38-45, 50-51, 53-54, 56-58, 66-73, 75-80, 115-138, 141-153, 156-160; `numeric/arc_length.py` 7-8, 11-18, 21-24, 27-50
* **Cu**: `geom/curves/curve_utils.py` 13-36, 39-55, 58-79, 82-85, 88-90, 93-109, 112-160, 163-185, 192-213, 216-230
* **Dac**: `numeric/bisection.py` 17-39, 45-86, 89-104; `numeric/divide_and_conquer.py` 13-55, 58-100, 103-136, 146-165, 169-217, 282-366, 369-424
* **Dc**: `geom/implicit/dc/__init__.py` 14-16, 19-35, 62-91, 94-119, 122-127, 154-167, 170-200, 203-210, 213-214, 217-225, 228-250, 253-259, 262-292, 295-305, 308-309, 347-359, 362-376, 379-393, 396-413; `geom/implicit/tree/collapse2d.py` 11-75, 194-198
* **Der**: `geom/nurbs.pxd` 350-432; `geom/nurbs.pyx` 183-216, 222-341, 347-377, 382-415, 423-460, 893-1016, 1050-1099, 1429-1432, 1439-1443, 1573-1586, 1591-1605, 1611-1632, 1635-1639, 1644-1658, 1662-1675, 1680-1693, 1698-1703, 1709-1714; `geom/parametric.pyx` 221-224, 230-233, 239-242, 248-251; `numeric/calgorithms.pyx` 20-52, 81-135; `numeric/vectors.pyx` 138-145, 505-510
* **Gjk**: `numeric/algorithms/cygjk.pyx` 17-34; `numeric/algorithms/gjk.py` 7-8, 10-40, 44-67, 70-131, 134-203
* **Impl**: `geom/implicit/implicit.py` 16-33, 36-40, 115-122, 176-187, 196-197, 208-219, 221-235, 263-264, 277-297, 333-353, 356-379, 382-405, 408-431, 434-444, 447-457; `geom/implicit/tree/cbuild_tree3d.pyx` 7-40, 42-75; `geom/implicit/tree/collapse2d.py` 11-75, 81-96, 98-191; `geom/implicit/tree/collapse3d.py` 113-180; `geom/implicit/tree/tree2d.py` 9-18, 20-38, 40-56; `geom/implicit/tree/tree3d.py` 19-37, 39-60
* **Interval**: `numeric/interval/_interval.py` 8-11, 18-28, 33-41, 43-46, 48-52, 54-59, 61-64, 76-90, 94-98, 100-114, 116-117, 119-127, 129-138, 140-141, 146-152, 154-159, 182-183, 185-192
* **Ipt**: `geom/curves/offset.py` 12-25, 41-43; `geom/vec/__init__.py` 136-138, 154-163, 165-178, 246-259, 270-273, 285-322; `numeric/algorithms/implicit_point.py` 14-49, 52-146, 153-162, 165-174, 192-214, 217-218; `numeric/algorithms/point_in_curve.py` 32-39; `numeric/algorithms/point_inversion.py` 14-73, 82-198; `numeric/algorithms/tnb.py` 5-36; `numeric/calgorithms.pxd` 65-151; `numeric/intersection/ssx/_ssi.pyx` 10-36; `numeric/intersection/ssx/sectioal_tangent.py` 51-62; `numeric/intersection/ssx/surface_surface.py` 57-70; `numeric/vectors.pyx` 317-328
* **Kd**: `ds/bkdtree.py` 7-14, 17-26, 29-50, 60-82, 84-96, 98-115, 117-126, 128-146, 148-158, 160-184, 186-236, 238-246, 248-250, 252-281, 283-293, 295-333, 335-357
* **Knot**: `geom/curves/bspline_utils.py` 18-41, 44-60, 63-84; `geom/curves/deboor.pyx` 7-28, 33-48, 53-61, 68-80; `geom/curves/knot.py` 17-65, 84-97, 100-125, 127-169, 171-196, 198-237, 252-260, 263-311, 314-334, 337-355, 953-988, 1175-1191; `geom/nurbs.pxd` 49-59
* **Lu**: `numeric/matrix/__init__.pyx` 17-37; `numeric/matrix/cmatrix.h` 7-11, 14-22, 81-125, 128-166, 169-213; `numeric/newton/bounded.py` 14-15, 19-22, 24-33, 35-68, 70-88
* **Mch**: `numeric/intersection/separability/spatial.py` 31-34, 40-50, 56-60, 62-104, 106-115, 146-208; `numeric/marching.py` 26-78, 81-151, 155-184
* **Mol**: `geom/bvh/__init__.py` 200-206, 290-294, 760-924; `numeric/algorithms/moller.pyx` 14, 18-20, 24-26, 30-60, 64-85, 90-162, 165-219, 222-288, 292-353, 383, 395-420
* **Ncs**: `geom/curves/implicitly.py` 18-29; `geom/curves/spline.py` 16-32; `geom/materials/__init__.py` 29-43, 45-47, 53-55, 66-67, 106-109; `geom/utils.py` 4-49; `numeric/newton/__init__.py` 3, 10-86
* **Nurbs**: `geom/nurbs.pxd` 35-61, 68-107, 169-257, 435-441; `geom/nurbs.pyx` 42-72, 78-166, 1151-1171, 1221-1237, 1344-1349, 1353-1356, 1363-1368, 1371-1373, 1383-1406, 1449-1472, 1550-1557, 1958-1962, 2073-2085
* **NurbsEdit**: `geom/nurbs.pxd` 21-28, 262-273, 277-278; `geom/nurbs.pyx` 511-550, 554-568, 1716-1748, 1872-1879, 1968-1981, 2033-2034, 2040-2064, 2091-2172
* **Oct**: `geom/implicit/tree/octree.py` 14-27, 50-57, 59-98, 108-119, 123-128, 131-143; `geom/implicit/tree/utils.py` 2-4, 27-38, 41-48, 50-62, 64-76, 80-91
* **Par**: `geom/curves/_cubic.pyx` 5-19, 24-33, 37-45, 49-53; `geom/curves/cubic.py` 59-76; `geom/evaluator/surface_evaluator.pyx` 36, 41-55, 60-73, 78-99, 103-122, 128-157, 162-188, 210-260; `geom/parametric.pyx` 11, 24-29, 47-50, 56-75, 100-115, 137-141, 147-151, 156-175, 196-215, 271-287, 296-310, 326-350, 355-377, 382-404, 409-431, 437-459, 468-475, 549-580, 621-624, 643-651, 671-683, 688-697, 703-719, 724-740, 746-752, 792-801, 805-811, 816-821, 826-829, 834-838
* **Pickle**: `geom/nurbs.pyx` 1149-1150, 1280-1296
* **Pln**: `numeric/plane/__init__.py` 14-17, 34-43, 74-81, 84-87, 90-100, 102-110, 112-135, 138-145, 148-151, 181-193, 196-209, 216-221, 224-235, 245-262, 264-269; `numeric/plane/cplane.pyx` 3, 13-24, 45-48, 54-59, 86-93, 99-106, 119-154, 214-249, 253-287, 305-308, 321-324, 328-334, 339-359, 362-388, 421-470, 499-541, 544-583, 589-687; `numeric/vectors.pyx` 363-376
* **Poly**: `geom/polygon.py` 89-92, 102-110, 114-115, 117-123, 127-141, 190-206, 246-250, 266-286, 300-306, 325-332, 334-341, 402-494, 519-520, 626-627, 630-639, 642-643, 646-663, 706-708, 710-717, 720-725, 728-747, 769-786, 806-810, 813-825, 828-830, 833-880; `numeric/aabb.py` 39-56
* **Pq**: `api/color.py` 6-18, 20-30, 32-42, 44-55, 57-109; `geom/vec/svm.py` 12-49; `numeric/algorithms/sweep_line/priority_queue.py` 5-8, 12-13, 40-68, 70-74, 78-83; `numeric/intersection/ccx/ccd.py` 5-46, 49-80
* **Prm**: `geom/primitives.pxd` 2, 5-9, 11-21; `geom/primitives.pyx` 3, 37-39, 127-129, 132-141, 147-161, 169-175, 182-188, 192-194, 197-206, 223-225, 237-242, 246-261, 266-276, 280-287, 291-297, 301-304, 307-308, 322-328, 334-336, 346-352, 367-376, 380-391, 393-418, 425-427, 430-432, 434-435, 438-445, 472-485, 488-543
* **Ref**: `geom/nurbs.pxd` 281-286; `geom/nurbs.pyx` 563-765
* **Rk**: `numeric/integrate/rk45.pyx` 5-60
* **Romb**: `numeric/integrate/romberg.pyx` 9-70
* **Rt**: `geom/curves/curve_bool.py` 23-44, 47-150; `numeric/routines/__init__.py` 8-14, 17-44, 47-49, 52-58, 67-68, 71-80, 83-87, 90-93, 96-116, 119-120, 123-128, 135-168, 170-172, 175-179; `numeric/routines/_routines.pyx` 7-25
* **Rtree**: `ds/tree/rtree.py` 3-53, 57-60, 62-79, 81-118, 126-134, 136-140, 150-163, 166-191
* **Ser**: `geom/nurbs.pxd` 435-441; `geom/nurbs.pyx` 1115-1117, 1353-1357, 1801-1861, 1893-1949, 1951-1955
* **Skip**: `numeric/algorithms/sweep_line/skiplist.py` 36-44, 48-53, 69-73, 75-92, 94-117, 119-138, 140-141, 148-153, 161-166
* **Sort**: `numeric/algorithms/_quicksort.c` 4-8, 10-25, 27-37, 45-59; `numeric/algorithms/_unique.c` 5-10, 12-55, 58-93, 95-130; `numeric/algorithms/quicksort.pyx` 13-20, 26-33, 41-53
* **Sph**: `numeric/intersection/separability/spherical.py` 19-31, 34-56, 59-79, 82-161, 164-186, 188-191, 193-195, 198-208, 211-242; `numeric/newton/constrained.py` 9-34, 137-197; `numeric/vectors.pyx` 183-197
* **Sseq**: `numeric/algorithms/sweep_line/sortseq.py` 5-18, 20-29, 31-47, 49-54, 56-62, 87-88, 90-94, 101-121, 123-139, 141-159
* **Step**: `compat/step/step_writer.py` 18-41, 44-110, 113-139, 145-152, 155-175, 223-255, 260-263, 265-280, 282-283, 286-300, 313-319, 321-353, 355-359, 361-426, 428-435, 437-451, 453-457, 465-506
* **Surf**: `geom/nurbs.pxd` 302-344, 470-486; `geom/nurbs.pyx` 2291-2325, 2328-2331, 2340-2354, 2374-2377, 2382-2387, 2391-2395, 2461-2462, 2523-2544, 2556-2558, 2598-2635, 2651-2652, 2658-2694, 2703-2769, 2775-2841, 2846-2863, 2889-2936
* **Swp**: `numeric/algorithms/sweep_line/point.py` 12-20, 22-30, 35-36, 44-46; `numeric/algorithms/sweep_line/segment.py` 18-32, 40-41, 50-51, 53-68, 70-73, 75-92; `numeric/algorithms/sweep_line/sweep_intersector.py` 28-30, 221-228, 280, 296-312, 314-318, 331-337
* **Tess**: `topo/mesh/tess.py` 48-53, 56-57, 60-72, 100-154; `topo/mesh/triangle/tri.py` 3-25, 27-28, 81, 85, 155-161, 185-186, 189-210
* **Tld**: `topo/mesh/triangle/data.py` 11-12, 31-57, 59-76, 78-95, 97-107, 109-117, 119-137, 139-156, 158-168, 176-180
* **UnionFind**: `ds/union_find.py` 1-4, 6-9, 11-22, 25-61
* **Vec**: `geom/features.py` 72-87; `numeric/closest_point.py` 309-312, 315-318; `numeric/intersection/pp.py` 84-86, 89-92; `numeric/vectors.pxd` 229-234; `numeric/vectors.pyx` 18-23, 39-50, 53-68, 73-83, 86-96, 100-111, 115-120, 138-145, 149-163, 166-178, 183-197, 202-210, 215-225, 230-244, 248-259, 264-271, 276-285, 290-299, 304-313, 317-322, 333-340, 342-347, 363-376, 382-399, 412-427, 431-438, 442-452, 457-466, 470-483, 496-500, 505-510, 703-718, 722-740, 743-757

## Which parts of the code are not modelled

* `geom/nurbs.pyx`: `surface_deriv_cpts`, knot removal for more than one copy, degree elevation of curves, the equation classes
  (`CurveSurfaceEq`, `SurfaceSurfaceEq`); of `geom/parametric.pyx`: `RationalRuled` and `evaluate_multi`; the `_array` variants of `geom/evaluator/surface_evaluator.pyx`.
* `geom/curves/knot.py` beyond the lines listed above (knot refinement, degree elevation, joining, the LU solver),
  `curves/curve.py`.
* `numeric/`: the Runge-Kutta integrator, Newton and marching solvers except the point iterations listed above, closest point, the vectorised `points_inversion_surface`, gauss map,
  intersection (`ccx`, `csx`, `ssx` apart from boundary points and `Terminator`), sweep line apart from the skip list, sorted sequences, points, segments and sorting of results;
  in `numeric/plane`: `arbitrary`, `orient_matrix` and the empty stubs.
* of `api/`: `Circle3D`, the arc classes, `surface.py`, `base.py`, `enums.py`, `color.py`, the NURBS conversions; of `topo/` the meshes and the tessellation of edges and loops, `construction/`, `renderer/`, `common/`, `compat/` except `step_writer.py`.
* Everywhere: rounding, NaN and infinities, integer overflow, memory allocation failure, threads (except the parallel loop of `moller.pyx`), printing,
  performance, and the behaviour of third-party libraries (NumPy, SciPy, steputils) beyond the few functions whose
  meaning is stated beside the definition that uses them.

## Print Assumptions per theorem

Output of the `Print Assumptions` command that follows each theorem.

* `AabbProps.v`, 16 theorems, "Closed under the global context": C19_tight, C19_tight_default, C19_segment, C19_empty, C20_overlap, C20_overlap_3d, C20_intersection, C20_point, C21_segment, C21_hit, C21_clip, C75_wide_refuted, C75_narrow_partial, C76_tiny_refuted, C77_first_hit, C78_far_refuted
* `ApiProps.v`, 53 theorems, "Closed under the global context": C307_from_points_refuted, C308_from_points, C309_union, C310_expand, C310_combine, C311_intersects, C311_overlap, C312_intersection, C313_contains_partial, C313_contains_refuted, C314_copy_refuted, C314_copy_partial, C315_centroid, C316_in_place_refuted, C316_in_place_partial, C317_parallel_partial, C317_parallel_refuted, C317_opposite_refuted, C318_perpendicular_partial, C318_perpendicular_refuted, C319_length_refuted, C319_length_partial, C320_compose, C320_affine, C320_translation, C321_transform_refuted, C321_cells_refuted, C322_frame_refuted, C322_frame_partial, C323_align_refuted, C324_rotation_refuted, C324_rotation_3d_refuted, C324_rotation_partial, C325_rotate_to, C326_rotate_to_refuted, C326_rotate_to_partial, C327_collection_refuted, C328_plane_line, C329_moved_line_refuted, C330_plane_plane_refuted, C330_plane_plane_partial, C331_coplanar_refuted, C331_coplanar_partial, C332_set_origin_refuted, C333_line_line_refuted, C333_line_line_partial, C334_cross_partial, C334_lifted_refuted, C334_infinite_refuted, C335_colinear_refuted, C336_three_points, C336_not_in_line, C337_circle_points_refuted
* `AvlProps.v`, 8 theorems, "Closed under the global context": C03_avl_ordered_set, C04_avl_balanced, C05_avl_map_refuted, C05_avl_delete_refuted, C05_avl_assign_once_partial, C05_avl_delete_partial, C53_append_keeps_values_refuted, C53_append_partial
* `BezProps.v`, 18 theorems, "Closed under the global context": C24_binomial_counts, C25_same_polynomial, C25_bernstein_sum, C25_back_to_bezier, C25_round_trip, C25_invertible, C26_same_curve, C26_same_ends, C26_wrong_count, C81_elevation_outside_refuted, C81_conversion_outside_refuted, C82_cross_product, C83_partial_derivatives, C83_derivative_unique, C84_normal, C85_no_basis_change_refuted, C85_constant_partial, C86_rational_patch
* `BndProps.v`, 8 theorems, "Closed under the global context": C373_projection, C373_closest, C374_line_search, C375_strong_wolfe, C376_backtrack, C377_bounded_descent, C378_minimiser_stays, C379_linear_not_minimised_refuted
* `BrepProps.v`, 37 theorems, "Closed under the global context": C338_store_positions, C338_store_grows, C338_store_merges, C339_close_points_refuted, C339_merged_points_partial, C340_vertices, C340_unchecked, C341_edge_ends_refuted, C341_edge_ends_partial, C342_face_holes_refuted, C342_face_outer_partial, C342_face_new_partial, C343_shells_refuted, C344_hash_refuted, C345_table_reads, C345_table_rows, C345_table_neighbours, C346_delete_refuted, C346_delete_partial, C347_loop_vertices_partial, C347_loop_chain_refuted, C348_isocurve_refuted, C348_isocurve_partial, C348_isocurve_range, C348_isocurve_parts, C349_unique_points, C349_unique_order, C350_pairs, C350_two_points, C351_boundary_parameters_partial, C351_boundary_parameters_refuted, C352_kept_points, C352_none_lost, C353_pop_order, C354_remove_refuted, C354_remove_pair_refuted, C354_delete_partial
* `BvhProps.v`, 34 theorems, "Closed under the global context": C29_build, C29_invalid, C30_box_query, C30_leaves, C31_pairs, C31_leaf_pairs, C31_overlap, C32_cut_refuted, C32_stale_refuted, C32_half_partial, C32_from_zero_partial, C32_split8_partial, C98_point, C98_node, C98_listing, C99_second_refuted, C99_found_partial, C100_vicinity, C100_signed_distance, C101_greedy_refuted, C101_reported_partial, C102_segment, C103_corners, C103_edges, C103_faces, C104_merge, C104_intersection, C104_intersect, C104_interiors, C104_contains, C105_expand_refuted, C106_evaluate_refuted, C107_reordered_refuted, C107_sorted_partial
* `CacheProps.v`, 8 theorems, "Closed under the global context": C39_fresh_partial, C39_degree_refuted, C39_copy_refuted, C39_shared_refuted, C39_result_refuted, C141_independent_partial, C141_shared_refuted, C142_deepcopy
* `CdllProps.v`, 10 theorems, "Closed under the global context": C06_cdll_ring, C06_cdll_out_of_range, C07_insert_front_refuted, C08_remove_last_refuted, C08_remove_absent_refuted, C08_remove_present_partial, C54_replace_node_refuted, C55_iter_empty_refuted, C56_cdll_index_negative_partial, C56_get_too_negative_refuted
* `CircProps.v`, 21 theorems, "Closed under the global context": C292_evaluated_points, C292_implicit, C292_unit_normal, C293_point_on_curve_nearest, C293_centre_fails, C294_parameter_of_point_refuted, C294_parameter_of_point_partial, C295_common_points, C295_no_common_point, C295_equal_circles, C296_third_coordinate_refuted, C296_third_coordinate_partial, C297_tangents_refuted, C297_tangents_partial, C298_closest_parameter_refuted, C298_closest_parameter_partial, C299_step_has_height, C299_height_has_step, C299_curve_step, C300_length_refuted, C300_length_partial
* `CuProps.v`, 14 theorems, "Closed under the global context": C391_find_span, C392_basis_closed_form, C392_linear_basis_partial, C392_basis_functions_refuted, C393_end_of_domain_refuted, C394_point_of_two_control_points_refuted, C394_linear_curve_partial, C395_binomial_partial, C395_binomial_refuted, C396_rational_derivatives_partial, C397_nurbs_derivatives_refuted, C397_nurbs_derivatives_never, C398_surface_point_refuted, C398_surface_point_never
* `DacProps.v`, 22 theorems, "Closed under the global context": C27_recursive_min, C27_iterative_min, C27_recursive_max, C28_roots_at_right_end_refuted, C28_one_value_in_range_partial, C87_min_2d_in_range, C87_min_2d_bowl, C88_separable_valley_missed_refuted, C88_is_separable_partial, C89_quadratic_missed_refuted, C89_min_3d_in_range_partial, C90_middle_never_reached_refuted, C90_plane_misses_refuted, C90_min_nd_in_range_partial, C91_scan_reports_crossings, C92_root_reported_twice_refuted, C93_zero_lost_refuted, C93_zeros_of_it_partial, C93_sign_change_nearby_partial, C94_smallest_at_the_end_refuted, C94_smallest_at_the_start_refuted, C94_stops_in_range_partial
* `DcProps.v`, 22 theorems, "Closed under the global context": C380_shapes, C380_rectangle, C380_xor, C381_zero, C381_zero_outside, C382_contours, C383_contours_join, C383_contours_join_right, C384_interpolate, C384_bilinear_exact, C384_degenerate, C385_merge, C386_fold, C387_horizontal_edges, C387_tiled, C388_vertical_edges_refuted, C388_vertical_edges_partial, C389_traversal_partial, C389_filter_refuted, C389_border_cells_refuted, C390_nd_max_partial, C390_nd_max_overwrites_refuted
* `DerProps.v`, 20 theorems, "Closed under the global context": C165_basis_derivatives, C165_derivatives_unique, C166_curve_derivatives, C166_first_and_second, C166_unweighted, C166_unique, C166_algorithms_agree, C167_weights_ignored, C167_rational_curve_refuted, C168_derivative_control_points_refuted, C169_plane_at_partial, C169_zero_speed_refuted, C169_normal_refuted, C170_tangent_partial, C170_curvature_partial, C171_surface_derivatives_partial, C171_upper_end_refuted, C172_rational_surface_partial, C172_unique, C172_zero_weight
* `GjkProps.v`, 14 theorems, "Closed under the global context": C236_gjk_answers, C237_no_refuted, C237_no_partial, C238_yes_refuted, C238_yes_partial, C238_winding, C239_compiled_yes_refuted, C239_compiled_yes_partial, C240_order_refuted, C241_moved, C242_more_passes, C243_support, C244_triangle_distance, C245_versions_refuted
* `ImplProps.v`, 16 theorems, "Closed under the global context": C43_operators, C43_solids_partial, C43_plane_partial, C43_minus_swapped_partial, C43_difference_refuted, C43_difference_bounds_refuted, C43_intersection_2d_refuted, C44_quadtree, C44_octree, C108_elsewhere_refuted, C109_shape_tree_refuted, C110_rebuild, C111_point_inside, C112_gradient, C112_tangent, C113_on_curve_refuted
* `IntervalProps.v`, 33 theorems, "Closed under the global context": C16_sum, C16_sum_scalar, C16_product, C16_intersection, C16_intersection_scalar, C16_hull, C16_hull_scalar, C16_contains, C16_contains_scalar, C17_difference_refuted, C17_difference_scalar_partial, C17_scale_refuted, C17_scale_div_refuted, C17_quotient_partial, C17_even_power_refuted, C17_power_partial, C18_compare, C18_strict, C18_weak, C69_less_partial, C69_greater_partial, C69_greater_refuted, C70_subdivide, C70_evaluate, C70_float, C71_invert, C71_zero, C71_zero_end, C72_division_refuted, C73_max, C73_min, C74_from_tuple_refuted, C74_never_refuted
* `IptProps.v`, 28 theorems, "Closed under the global context": C215_improve_uv, C216_order_refuted, C217_improve_uv_python_refuted, C217_improve_uv_python_partial, C218_planes_meet, C219_last_step, C220_success_refuted, C221_grads_pair_refuted, C221_answer_form_partial, C222_compiled_agrees, C223_surface_point, C224_surface_point_refuted, C225_surface_plane_refuted, C226_curve_point, C227_curve_point2_refuted, C227_curve_point2_partial, C228_curve_inversion_refuted, C228_curve_inversion_partial, C229_surface_inversion_refuted, C229_surface_inversion_partial, C230_orthonormalize, C230_zero_vector, C231_arguments_refuted, C232_frenet, C233_perpendicular_refuted, C233_perpendicular_partial, C234_offset_refuted, C235_inside_and_clamp
* `KdProps.v`, 15 theorems, "Closed under the global context": C09_build, C09_mixed, C10_nearest, C11_knn_partial, C11_knn_one_partial, C11_knn_refuted, C12_delete_partial, C12_delete_missing_partial, C12_delete_tie_refuted, C66_depth, C67_nearest_after_delete_refuted, C67_nearest_after_missing_delete_partial, C67_nearest_after_one_delete_partial, C68_build_mutates_argument_refuted, C68_argument_reordered_partial
* `KnotProps.v`, 32 theorems, "Closed under the global context": C33_find_span_linear, C33_find_spans, C33_find_knot_span, C34_basis_function, C42_generate_knot_clamped, C42_generate_knot_unclamped, C42_compute_knot_vector, C146_binsearch_partial, C146_binsearch_end_refuted, C146_utils_partial, C146_utils_total, C146_utils_start_refuted, C146_outside_diverges_refuted, C147_calc_basis_partial, C147_calc_basis_refuted, C147_calc_point_refuted, C148_evaluate_nurbs, C149_multi_single_partial, C149_multi_refuted, C150_normalize_knot, C151_params, C151_no_length, C152_interpolation_system, C152_interpolation_passes, C153_merge_partial, C153_merge_close_refuted, C153_close_knots_refuted, C154_remove_duplicates_partial, C154_nothing_to_remove, C154_drift_refuted, C155_deboor_partial, C155_deboor_knot_refuted
* `LuProps.v`, 8 theorems, "Closed under the global context": C366_lu_factors, C367_lu_solve, C368_invert, C369_inv_keeps_argument_refuted, C369_inv_argument_partial, C370_reduced_hessian, C371_reduce_and_back_solve, C372_linear_solve_refuted
* `MchProps.v`, 14 theorems, "Closed under the global context": C441_march_implicit, C441_points_on_curve, C442_point_limit_refuted, C443_march_intersection, C443_stops, C444_raster, C445_default_gradient_refuted, C445_not_general_refuted, C446_plane_test, C446_finds_plane_refuted, C447_found_plane, C447_zero_solution_refuted, C448_spatial_separability, C448_are_separable
* `MolProps.v`, 19 theorems, "Closed under the global context": C246_triangle_sound, C247_triangle_complete_partial, C247_triangle_complete_refuted, C248_direction, C249_classes_partial, C249_classes_refuted, C250_first_triangle, C251_flag_refuted, C252_batch, C253_parallel_partial, C253_parallel_refuted, C254_interleavings, C255_mesh_sound, C256_mesh_complete_partial, C256_mesh_complete_refuted, C257_ray_partial, C257_ray_refuted, C258_ray_distance_refuted, C259_ray_leaves_refuted
* `NcsProps.v`, 16 theorems, "Closed under the global context": C433_converged_partial, C433_first_small_step_partial, C433_constraint_value_refuted, C434_linear_constraint_refuted, C434_iteration_limit_refuted, C435_float_colour, C435_round_trip, C436_int_components_partial, C436_float_components_refuted, C437_hex_round_trip_partial, C437_large_components_refuted, C438_segments, C438_cover, C439_shape, C439_too_few_knots_refuted, C440_implicit_curve
* `NurbsEditProps.v`, 12 theorems, "Closed under the global context": C37_insert_knot_columns, C37_insert_knot_keeps_curve, C61_rational_insert_refuted, C62_multiply_knot, C63_greville_after_insert_refuted, C40_reverse_curve, C40_reverse_twice, C64_flip_refuted, C41_normalize_knots, C51_split_curve, C51_split_normalized, C65_rational_split_refuted
* `NurbsProps.v`, 19 theorems, "Closed under the global context": C33_find_span, C33_find_span_below, C33_find_span_periodic, C34_basis, C35_convex_hull_box, C35_bbox_partial, C35_bbox_weights_refuted, C36_start, C36_end, C42_generated_knots, C42_periodic_knots, C50_greville, C57_evaluate_is_nurbs, C57_evaluate_multi, C58_evaluation_loops_refuted, C58_clamped_interval_partial, C59_make_periodic_closed_partial, C59_make_periodic_refuted, C60_periodic_repeats_refuted
* `OctProps.v`, 13 theorems, "Closed under the global context": C134_tile, C135_ends, C135_never, C136_closest, C137_overlap, C137_contains, C137_in, C137_point, C138_traverse, C139_power, C139_low_refuted, C140_rectangle, C140_raises_refuted
* `ParProps.v`, 29 theorems, "Closed under the global context": C275_default_derivative_refuted, C275_default_derivative_partial, C276_curvature_of_plain_curve, C277_frame_of_curve, C277_tangent_of_curve, C278_call_refuted, C278_call_partial, C279_points, C280_cubic_derivatives, C280_two_cubic_classes, C281_cubic_is_bezier, C281_cubic_hull, C282_end_derivatives_refuted, C282_end_derivatives_partial, C283_surface_derivatives_refuted, C283_surface_derivatives_partial, C284_second_derivatives_refuted, C284_second_derivatives_partial, C285_inside_domain_refuted, C285_inside_domain_partial, C286_surface_plane, C287_ruled_surface, C288_ruled_u_refuted, C288_ruled_u_partial, C289_bilinear_corners, C289_bilinear_derivatives, C289_bilinear_hull, C290_callback_derivatives, C291_callback_normal
* `PlnProps.v`, 32 theorems, "Closed under the global context": C176_coordinates, C177_three_planes, C178_three_planes_defined_refuted, C178_three_planes_defined_partial, C178_three_planes_total_partial, C179_two_planes, C180_two_planes_defined_refuted, C180_two_planes_total_partial, C181_stacks_refuted, C181_planes_planes_refuted, C181_stacks_partial, C182_ray_plane, C182_line_plane, C183_plane_ray_refuted, C183_plane_ray_partial, C184_parametric, C185_plane_equation, C185_signed_distance, C185_signed_value, C186_from_equation_refuted, C186_from_equation_partial, C187_from_points, C188_from_normal_refuted, C188_from_normal_partial, C188_short_normal_partial, C189_from_normal_origin_refuted, C189_from_normal_origin_partial, C190_project, C190_project_plane, C191_distance, C192_local_to_world_refuted, C192_local_world_partial
* `PolyProps.v`, 27 theorems, "Closed under the global context": C45_accelerated, C46_rotation, C46_reversal, C46_extra_vertex, C114_even_odd, C115_area, C115_rotation, C115_reversal, C115_translation, C115_linear_map, C116_found, C116_exact, C117_sound, C117_unclipped, C117_boundary, C117_errors, C118_disjoint_refuted, C119_total, C120_no_crossing_refuted, C120_separated_refuted, C121_or_refuted, C122_open_partial, C122_closed_partial, C122_two_columns_refuted, C123_segments_partial, C124_hull_partial, C124_small_refuted
* `PolyProps2.v`, 3 theorems, "Closed under the global context": C125_intersection, C125_union, C125_difference
* `PqProps.v`, 12 theorems, "Closed under the global context": C417_runs, C417_min, C418_delete_min, C418_insert, C418_empty, C419_sorted_output, C419_remaining_sorted, C420_support_vector_partial, C420_empty_refuted, C421_closest_pair, C421_squared_distance, C422_color_components_refuted
* `PrmProps.v`, 21 theorems, "Closed under the global context": C260_sphere_distance, C261_sphere_bounds, C262_sphere_gradient, C263_sphere_lipschitz, C263_tube_lipschitz, C264_axis_distance, C264_degenerate, C265_solid_bounds, C266_bounds_contain_refuted, C266_bounds_contain_partial, C267_cylinder_gradient, C268_tube_gradient, C269_tube_gradient_unit_refuted, C270_base_gradient, C270_base_default, C271_parametrisation, C271_within_bounds, C272_parametric_gradient, C273_any_axis_refuted, C273_any_axis_partial, C274_assign_radius_refuted
* `RefProps.v`, 11 theorems, "Closed under the global context": C301_refinement_keeps_curve, C302_multiplicities, C303_nothing_to_insert_refuted, C304_list_sorted_in_place_refuted, C304_list_kept_partial, C305_density_two_partial, C305_repeated_knots_refuted, C305_density_three_refuted, C306_removal_deletes_a_row_refuted, C306_insert_remove_refuted, C306_removal_count_partial
* `RkProps.v`, 9 theorems, "Closed under the global context": C412_exact_for_polynomials, C412_error_estimate, C413_linear_systems, C414_trace, C414_backward, C415_ends_partial, C415_ends_refuted, C416_polynomial_values, C416_cubics_integrated
* `RombProps.v`, 4 theorems, "Closed under the global context": C173_romberg_table, C174_exact, C174_table_exact, C175_accuracy_refuted
* `RtProps.v`, 33 theorems, "Closed under the global context": C399_elementwise, C399_arguments_kept_refuted, C400_find_similar, C400_empty, C401_cartesian_product, C401_rows, C402_grids, C402_corners_and_bounds, C403_insert, C404_split_dim_partial, C404_index_refuted, C405_add_dim, C405_remove_add, C405_remove_dim, C406_split_by_parts_partial, C406_one_piece_per_part_refuted, C407_divide_interval_partial, C407_within_interval_refuted, C408_cubic_spline, C408_in_the_box, C409_append_vector_partial, C409_append_vector_refuted, C409_scalar_refuted, C409_append_matrix, C410_groups, C410_spread, C410_order_irrelevant, C410_near_a_value_refuted, C411_operations_partial, C411_every_piece_once, C411_unknown_operation, C411_disjoint_curves_refuted, C411_two_crossings_refuted
* `RtreeProps.v`, 8 theorems, "Closed under the global context": C13_box_lawful, C13_rectangle_lawful, C13_stale_boxes_refuted, C13_sound_partial, C13_complete_while_small_partial, C95_all_stored_and_occupied, C96_unbalanced_refuted, C97_bad_limits_refuted
* `SerProps.v`, 10 theorems, "Closed under the global context": C38_round_trip_partial, C38_magic, C38_version, C38_spread_refuted, C143_bytes_refuted, C143_bytes_partial, C144_cut_refuted, C144_memory_refuted, C145_pickle_partial, C145_pickle_refuted
* `SkipProps.v`, 4 theorems, "Closed under the global context": C14_stores, C15_delete_refuted, C15_delete_loses_smaller, C15_delete_smallest_partial
* `SortProps.v`, 7 theorems, "Closed under the global context": C22_quicksort, C22_argsort, C23_unique, C23_unique_sorted, C79_tolerance_refuted, C79_tolerance_partial, C80_unique_mutates_refuted
* `SphProps.v`, 17 theorems, "Closed under the global context": C449_separable_hulls, C449_sound, C450_repeated_vertex_refuted, C450_single_point_refuted, C450_self_partial, C451_circles_test_refuted, C452_largest_gap, C452_wedge_contains_refuted, C453_wedges_apart_refuted, C453_plain_wedges_partial, C454_center_projection, C454_stereographic_injective, C455_projection, C456_newton_steps, C456_linear_system, C457_quadratic_program, C457_system
* `SseqProps.v`, 3 theorems, "Closed under the global context": C364_sequence, C365_locate_refuted, C365_locate_partial
* `StepProps.v`, 24 theorems, "Closed under the global context": C47_arguments_partial, C47_nested_string_refuted, C47_typed_refuted, C47_doubled_refuted, C48_counts, C48_expand, C48_exact, C48_apart, C48_order, C49_fresh, C49_no_dangling, C126_total, C126_unclosed, C127_stray_refuted, C128_assignment_partial, C128_digit_refuted, C129_typed, C130_curve, C130_surface, C131_weights_refuted, C131_surface_weights_refuted, C132_loop_refuted, C133_name_refuted, C133_name_partial
* `SurfProps.v`, 21 theorems, "Closed under the global context": C156_evaluate_surface, C156_control_points, C157_boundary_u, C157_boundary_v, C157_corners, C158_bbox, C159_insert_u, C159_insert_v, C160_split_u, C160_split_v, C160_split_u_edge, C160_split_v_edge, C161_normalize, C162_subdivide_partial, C162_normalized_refuted, C163_decompose_uv, C163_decompose_u, C163_decompose_v, C164_new_surface_partial, C164_set_knots_partial, C164_set_degree_refuted
* `SwpProps.v`, 17 theorems, "Closed under the global context": C355_point_order_refuted, C355_point_order_partial, C356_orientation, C357_line, C357_trivial, C358_lines_refuted, C358_lines_partial, C359_segment_order_refuted, C359_segment_order_partial, C359_bundle_partial, C359_raises, C360_crossing, C360_crossing_point, C361_bound, C361_bound_found, C362_sorted_points, C363_sides
* `TessProps.v`, 19 theorems, "Closed under the global context": C423_any_surface_refuted, C423_corner_points_partial, C424_default_counts_refuted, C424_given_counts_partial, C424_density_ignores_u, C425_segments, C426_on_the_boundary_partial, C426_distinct_points_refuted, C427_inner_grid_partial, C427_one_point_refuted, C428_open_loops_partial, C428_indices_exist, C428_closed_loops_refuted, C429_hole_point, C430_names_round_trip, C430_names_forward, C430_unknown_name, C431_voronoi, C432_edge_cases
* `TldProps.v`, 12 theorems, "Closed under the global context": C458_vertices_round_trip, C459_triangles_round_trip, C460_segments_round_trip, C460_holes_round_trip, C460_poly_file, C461_edge_file_refuted, C461_voronoi_file_partial, C462_neighbours_round_trip_partial, C462_no_neighbour_refuted, C463_areas_round_trip, C463_regions_partial, C463_regions_refuted
* `UnionFindProps.v`, 3 theorems, "Closed under the global context": C01_union_find_connectivity, C02_group_tuples_components, C52_find_depth_logarithmic
* `VecProps.v`, 31 theorems, "Closed under the global context": C193_inner_products, C194_products_refuted, C194_products_partial, C195_unit, C196_normalize, C197_support, C198_gram_schmidt_rows_refuted, C199_gram_schmidt_refuted, C199_gram_schmidt_partial, C200_solve, C200_invert, C201_solve_in_place_refuted, C201_solve_in_place_partial, C202_invert_many_refuted, C202_invert_partial, C203_decompose, C204_decompose_dependent_refuted, C205_closest, C206_ray_refuted, C206_ray_partial, C207_vector_closest_refuted, C207_vector_closest_partial, C208_marching_closest_refuted, C208_marching_closest_partial, C209_orientation, C210_open_refuted, C211_cross, C212_spherical, C213_cylindrical_refuted, C214_close_refuted, C214_close_partial
