{"id": "C01", "title": "Fractional and absolute coordinates are inverse maps", "statement": "For a valid box, Box.make_fractional(Box.make_absolute(f)) == f and Box.make_absolute(Box.make_fractional(v)) == v (in 2D: for vectors with z = 0 / fractions with z = 0). The absolute coordinate is the affine image lo + f1*a1 + f2*a2 + f3*a3 of the lattice vectors returned by Box.v1..v3.", "quantifier": "every box with non-zero lengths and arbitrary tilt factors, every vector; 2D and 3D", "why_tests_cant": "A test samples finitely many boxes and positions out of an infinite domain; the map mixes three tilt factors and a sign or index slip only shows for particular tilt combinations.", "anchors": ["freud/box/Box.h: Box::makeAbsolute, Box::makeFractional, Box::getLatticeVector", "freud/box.py: Box.make_absolute, Box.make_fractional"]}
{"id": "C02", "title": "wrap moves a point by a lattice vector into the primary cell", "statement": "Box.wrap(v) - v is an integer combination of the lattice vectors that uses only periodic directions; the fractional coordinates of the result lie in [0,1) along every periodic direction and are unchanged along non-periodic directions; a fully aperiodic box returns v unchanged.", "quantifier": "every valid box (2D and 3D, any tilt, any of the 8 periodicity settings) and every vector", "why_tests_cant": "A test samples finitely many boxes and positions out of an infinite domain; the claim is about all 8 periodicity settings times all tilts times arbitrarily distant positions.", "anchors": ["freud/box/Box.h: Box::wrap", "freud/util/utils.h: modulusPositive", "freud/box.py: Box.wrap"]}
{"id": "C03", "title": "wrap is a canonical representative of the periodic class", "statement": "wrap is idempotent, and for two vectors u, v: wrap(u) == wrap(v) if and only if u - v is an integer combination of the periodic lattice vectors.", "quantifier": "every valid box and every pair of vectors", "why_tests_cant": "The 'if and only if' over all pairs of real vectors and all integer shifts cannot be enumerated.", "anchors": ["freud/box/Box.h: Box::wrap", "freud/util/utils.h: modulusPositive"]}
{"id": "C04", "title": "unwrap undoes wrap using the image flags", "statement": "For a fully periodic box, Box.unwrap(Box.wrap(v), Box.get_images(v)) == v exactly when no fractional coordinate of v is an integer <= 0 (v is not on a lower face of the cell or of a lower image); unwrap adds exactly the integer combination of lattice vectors given by the flags. The unrestricted round trip is false and refuted by a concrete point.", "quantifier": "every valid fully periodic box and every vector", "why_tests_cant": "A test samples finitely many boxes and positions out of an infinite domain; the failing inputs form a measure-zero set that random tests do not hit.", "anchors": ["freud/box/Box.h: Box::getImage, Box::wrap, Box::unwrap", "freud/box.py: Box.get_images, Box.unwrap"]}
{"id": "C05", "title": "contains agrees with the primary cell", "statement": "Box.contains(points) marks a point exactly when its cell coordinates lie in the open interval (0,1) along every axis; every point returned by wrap in a fully periodic box is contained unless it lies on a face. The closed-cell reading of the documentation is refuted: a point produced by wrap on the lower face is reported as outside.", "quantifier": "every valid box and every point", "why_tests_cant": "A test samples finitely many boxes and positions out of an infinite domain; the discrepancy is only on the faces.", "anchors": ["freud/box/Box.h: Box::contains, Box::getImage", "freud/box.py: Box.contains"]}
{"id": "C06", "title": "Wrapped separation is the minimum image below half the smallest plane distance", "statement": "If some periodic image of a separation vector is shorter than half of every nearest-plane distance of the (periodic) box, then Box.wrap returns precisely that image, it is the unique shortest image, and compute_distances returns its length.", "quantifier": "every valid box, every separation vector, every lattice image", "why_tests_cant": "The claim quantifies over infinitely many lattice images for each vector.", "anchors": ["freud/box/Box.h: Box::wrap, Box::computeDistance, Box::getNearestPlaneDistance"]}
{"id": "C07", "title": "Nearest plane distances are the true perpendicular heights of the cell", "statement": "For each axis i, any vector whose i-th fractional displacement is d has length at least |d| * plane_distance_i, and the bound is attained by some vector; hence two points in a ball of diameter smaller than plane_distance_i never differ by a lattice translation along i.", "quantifier": "every valid box and every vector", "why_tests_cant": "A test samples finitely many boxes and positions out of an infinite domain; a wrong height formula is only visible for particular combinations of tilts.", "anchors": ["freud/box/Box.h: Box::getNearestPlaneDistance", "freud/box.py: Box.get_nearest_plane_distance (via NeighborQuery)"]}
{"id": "C08", "title": "Periodic distance is invariant under lattice translations and symmetric", "statement": "compute_distances(a, b) and compute_all_distances do not change when a or b is moved by periodic lattice vectors; entries are the norms of the wrapped separations; unequal lengths are rejected by compute_distances. Distances are symmetric in a and b for orthorhombic boxes and for all separations off the cell faces of any box; unrestricted symmetry is refuted in a tilted box.", "quantifier": "every valid box, all pairs of points and all lattice translations", "why_tests_cant": "A test samples finitely many boxes and positions out of an infinite domain; the asymmetric inputs are a measure-zero set.", "anchors": ["freud/box/Box.h: Box::computeDistance, Box::computeDistances, Box::computeAllDistances"]}
{"id": "C09", "title": "Box conversions round trip", "statement": "Box.from_matrix(b.to_matrix()) reproduces lengths, tilts and dimensionality; Box.from_box_lengths_and_angles(b.to_box_lengths_and_angles()) reproduces the lengths and tilts (3D); Box.from_box(b) == b for fully periodic boxes, a contradicting dimension argument is rejected; b * s scales lengths and volume, keeps tilts and dimensionality, and rejects s <= 0. That from_box and * keep non-default periodic flags is refuted.", "quantifier": "every valid box and every positive scale", "why_tests_cant": "A test samples finitely many boxes and positions out of an infinite domain; round trips over a continuum of tilts and angles.", "anchors": ["freud/box.py: Box.from_matrix, Box.to_matrix, Box.from_box, Box.__mul__, Box.from_box_lengths_and_angles, Box.to_box_lengths_and_angles"]}
{"id": "C10", "title": "Switching dimensionality keeps a consistent box", "statement": "Each attribute assignment changes the parameters it names and leaves the others alone. After any sequence of attribute assignments other than dimensions (Lx, Ly, Lz, xy, xz, yz, L, periodic) the box is identical to one freshly constructed from its reported parameters; reassigning L always restores consistency; assigning dimensions = 2 is consistent when xz = yz = 0. For arbitrary histories the claim is refuted: dimensions = 2 on a box with xz shifts wrapped x by the stale z origin, dimensions = 3 zeroes Lz.", "quantifier": "every sequence of setter calls", "why_tests_cant": "The state space of setter histories is unbounded.", "anchors": ["freud/box/Box.h: Box::set2D, Box::setL", "freud/box.py: Box.dimensions, Box.Lx, Box.L"]}
{"id": "C11", "title": "Center of mass is equivariant", "statement": "Box.center_of_mass returns a point of the primary cell; it does not change if any input position is replaced by a lattice image, if the list is permuted together with its masses, or if all masses are scaled by a positive factor; in a fully periodic box coincident points give the wrapped point, and translating all points translates the result (mod the lattice). Box.center returns lattice images of the positions minus the centre of mass, and in a fully periodic box their centre of mass is the origin. Along non-periodic axes a single point need not be its own centre of mass (refuted).", "quantifier": "every valid box, every list of positions, every list of positive masses with non-degenerate phase sum", "why_tests_cant": "Equivariance under all lattice images and permutations is an infinite family of equalities.", "anchors": ["freud/box/Box.h: Box::centerOfMass, Box::center", "freud/box.py: Box.center_of_mass, Box.center"]}
{"id": "C12", "title": "Multidimensional result arrays index bijectively in row-major order", "statement": "For any shape, the map from in-range multi-indices to linear offsets is a bijection onto [0, size) that equals row-major (C/NumPy, lexicographic) order; getMultiIndex is its inverse whenever the array has fewer than 2^31 elements (its int accumulator overflows beyond: refuted in general); getIndex rejects exactly the multi-indices of wrong rank or with a component strictly above the extent (an index equal to the extent is accepted and aliases another element: rejection of all out-of-range indices is refuted); linear access is bounds-checked and a write changes one element only.", "quantifier": "every shape of every rank and every multi-index", "why_tests_cant": "Unbounded rank and extents.", "anchors": ["freud/util/ManagedArray.h: ManagedArray::getIndex, getMultiIndex, operator[], operator()"]}
{"id": "C13", "title": "Histogram bins partition the range", "statement": "For a regular axis with n >= 1 bins on [min,max): a value in range is put in exactly one bin i < n, whose edges satisfy edge_i <= value < edge_{i+1}; a value outside the range is not counted at all; bin edges and centres are the arithmetic progressions reported by bin_edges/bin_centers.", "quantifier": "every axis with min < max and n >= 1 and every value", "why_tests_cant": "A test samples finitely many boxes and positions out of an infinite domain; off-by-one at edges is measure zero.", "anchors": ["freud/util/Histogram.h: RegularAxis, Axis::getBinEdges, Histogram::bin, Histogram::increment"]}
{"id": "C14", "title": "Histogramming conserves counts", "statement": "After feeding any finite sequence of weighted samples to a histogram, bin k holds exactly the sum of the weights of the samples falling in bin k, and the total over bins equals the total weight of the in-range samples.", "quantifier": "every finite sequence of samples, any number of axes", "why_tests_cant": "Unbounded sample sequences and ranks.", "anchors": ["freud/util/Histogram.h: Histogram::operator(), increment, bin"]}
{"id": "C15", "title": "Parallel accumulation is schedule independent", "statement": "For every way of cutting the iteration range into chunks, assigning chunks to threads and ordering them, the reduced histogram (and hence RDF, PMFT, BondOrder, CorrelationFunction) equals the one obtained by the sequential loop; every index is processed exactly once.", "quantifier": "every partition of the range, every assignment of chunks to threads, every execution order", "why_tests_cant": "The number of schedules is unbounded and a test run exercises only one of them.", "anchors": ["freud/util/Histogram.h: ThreadLocalHistogram::reduceInto, reduceOverThreads", "freud/util/utils.h: forLoopWrapper", "freud/locality/NeighborComputeFunctional.h: loopOverNeighbors"]}
{"id": "C16", "title": "Thread-local arrays reduce to the total on a zeroed result", "statement": "ThreadStorage.reduceInto applied to a zeroed result leaves the sum over all thread-local arrays, for any number of thread-local arrays and any schedule of the reduction loop; on a result with previous content r it leaves r plus that sum when at least one thread-local array exists and zero when none exists. (The documented independence from the previous content is refuted.)", "quantifier": "every history of local writes, every previous content of the result", "why_tests_cant": "History dependence: tests normally use a freshly zeroed result.", "anchors": ["freud/util/ThreadStorage.h: ThreadStorage::reduceInto"]}
{"id": "C17", "title": "Accumulating over frames equals one batch; reset forgets", "statement": "For RDF/PMFT/CorrelationFunction/BondOrder objects, any interleaving of compute(reset=False), compute(reset=True) and property reads yields results that depend only on the frames since the last reset, in a way independent of where property reads were interleaved (lazy reduction is invisible), and equal to summing the per-frame histograms.", "quantifier": "every finite history of compute(reset=True/False) and property reads", "why_tests_cant": "Unbounded histories of calls.", "anchors": ["freud/locality/BondHistogramCompute.h: BondHistogramCompute::reset, reduceAndReturn, accumulateGeneral", "freud/locality.py: _SpatialHistogram._reset", "freud/density/RDF.cc: RDF::accumulateRDF, RDF::reduce"]}
{"id": "C18", "title": "NeighborList construction accepts exactly the valid inputs", "statement": "NeighborList.from_arrays succeeds exactly when the query indices are sorted and all indices are below num_query_points/num_points; the resulting list holds exactly the given bonds in the given order with the given vectors, weights and their Euclidean lengths; otherwise it raises.", "quantifier": "every list of index pairs, every num_query_points/num_points, every vector array", "why_tests_cant": "Unbounded list lengths and index values.", "anchors": ["freud/locality/NeighborList.cc: NeighborList::NeighborList (array constructor)", "freud/locality.py: NeighborList.from_arrays"]}
{"id": "C19", "title": "Segments and neighbour counts describe the bond list", "statement": "After any history of constructions, filters, sorts, copies and reads: neighbor_counts[i] is the number of bonds with query index i; segments[i] is the position of the first bond of query point i when it has one and 0 when it has none; find_first_index(i) is the position of the first bond whose query index is at least i, for every i including those beyond the last query point; counts sum to the number of bonds. Refuted: segments is not the prefix sum of the counts when some query point has no bond.", "quantifier": "every sorted neighbour list, every query index, every history of filters and copies", "why_tests_cant": "Unbounded lists; stale-cache faults depend on operation history.", "anchors": ["freud/locality/NeighborList.cc: updateSegmentCounts, find_first_index, bisection_search, filter, filter_r, copy, resize"]}
{"id": "C20", "title": "filter keeps exactly the selected bonds", "statement": "nlist.filter(mask) keeps exactly the bonds whose mask entry is true, in the original order with their distances, vectors and weights unchanged; filter_r(r_max, r_min) keeps exactly those with r_min <= distance < r_max and raises unless 0 <= r_min < r_max; both commute and are idempotent, and the result is again a valid neighbour list. Refuted: the length of the mask is not checked (a shorter mask is read out of bounds, a longer one is accepted).", "quantifier": "every neighbour list, every mask of matching length, every pair of radii", "why_tests_cant": "Unbounded list lengths and masks.", "anchors": ["freud/locality/NeighborList.cc: NeighborList::filter, filter_r", "freud/locality.py: NeighborList.filter, filter_r"]}
{"id": "C21", "title": "all_pairs lists every pair exactly once", "statement": "NeighborList.all_pairs(system, query_points, exclude_ii) contains every pair (i,j) with i < num_query_points and j < num_points exactly once (except i = j when exclude_ii), sorted by (i,j), with unit weight and the wrapped distance. With the 32-bit unsigned arithmetic of the code this list is returned exactly if it has fewer than 2^32 pairs; otherwise an exception is raised, in every schedule, and never a list with some of the pairs.", "quantifier": "every number of points and query points, including zero, both exclude_ii values", "why_tests_cant": "Unbounded sizes; the linear bond index arithmetic is written without a counter and could collide.", "anchors": ["freud/locality/NeighborList.cc: NeighborList::NeighborList (all-pairs constructor)", "freud/locality.py: NeighborList.all_pairs"]}
{"id": "C22", "title": "Bond vectors point from query point to point", "statement": "In every NeighborList produced from a query (ball or nearest, any backend), vector_k is congruent modulo the lattice to points[j_k] - query_points[i_k] and distance_k is its length; filter, filter_r, sort, copy and SANN keep this. Refuted for all_pairs and for the RAD filter, which store the opposite direction.", "quantifier": "every neighbour list producer and every bond", "why_tests_cant": "Direction errors cancel in distance-only tests.", "anchors": ["freud/locality/NeighborList.cc: all-pairs constructor", "freud/locality/FilterRAD.cc: FilterRAD::compute", "freud/locality/AABBQuery.cc", "freud/locality/NeighborQuery.h: documentation of vectors"]}
{"id": "C23", "title": "Sorting a neighbour list", "statement": "nlist.sort(by_distance) permutes the bonds; the result is ordered by (query index, point index, weight, distance) or by (query index, distance, point index, weight), so it remains a valid neighbour list, per-query-point segments contain the same bonds, and counts, segments and find_first_index are unchanged. Refuted: the documented order (query index, point index, distance).", "quantifier": "every neighbour list and both orders", "why_tests_cant": "Unbounded lists.", "anchors": ["freud/locality/NeighborList.cc: NeighborList::sort", "freud/locality/NeighborBond.h: less_as_tuple, less_as_distance"]}
{"id": "C24", "title": "Per-query-point iteration visits every bond exactly once", "statement": "Looping over neighbours per query point (precomputed list or on-the-fly query, any chunking of the query points over threads) delivers for query point i exactly the bonds of i, each once; over all i every bond is delivered exactly once.", "quantifier": "every neighbour list, every partition of the query points", "why_tests_cant": "Unbounded lists and schedules.", "anchors": ["freud/locality/NeighborComputeFunctional.h: loopOverNeighbors, loopOverNeighborsIterator, NeighborListPerPointIterator", "freud/locality/NeighborPerPointIterator.h"]}
{"id": "C25", "title": "A query result can be reused with the system it came from", "statement": "A NeighborList obtained from a query on (points, query_points) is accepted for exactly those numbers of points, and stays so under filter, filter_r, sort, copy and reads. The list returned by a SANN or RAD filter is accepted exactly when the last query point and the last point still have a bond, so reuse is refuted in general.", "quantifier": "every system and every neighbour list", "why_tests_cant": "Depends on whether the highest-index particles happen to have neighbours.", "anchors": ["freud/locality/NeighborList.cc: NeighborList(std::vector<NeighborBond>), validate", "freud/locality/FilterRAD.cc", "freud/locality/FilterSANN.cc", "freud/locality/NeighborQuery.h: toNeighborList"]}
{"id": "C26", "title": "Query arguments are validated completely", "statement": "If no argument equals an internal sentinel (r_max=-1, r_guess=-1, scale=-1, num_neighbors=2^32-1), AABBQuery accepts exactly the well formed argument sets that ask for a ball query (mode 'ball', or no mode and r_max without num_neighbors) or for nearest neighbours (mode 'nearest', or no mode and num_neighbors) with scale > 1; LinkCell the same without looking at scale; CellQuery only ball queries with r_min < r_max, 0 < r_max below half of the smallest plane distance. Values given are used unchanged and missing ones get the documented defaults (r_min 0, exclude_ii False, unlimited r_max, scale 1.1, r_guess from the uniform-density radius capped at half the smallest plane distance, and never above r_max). Validating again (done for each query point) changes nothing. Refuted: the sentinel values themselves are taken as omitted arguments.", "quantifier": "every record of query arguments, every previously unset field", "why_tests_cant": "The product of optional fields and infinite parameter domains.", "anchors": ["freud/locality/NeighborQuery.h: QueryArgs, NeighborQuery::validateQueryArgs, inferMode", "freud/locality/AABBQuery.h: AABBQuery::validateQueryArgs, validateNearestNeighborArgs"]}
{"id": "C27", "title": "Image vectors enumerate exactly the needed periodic copies", "statement": "The image list used for a ball query contains the zero translation first and every combination in {-1,0,1} of the periodic lattice vectors exactly once (3^d in total); the query radius check guarantees that no other image can be within range of a wrapped point.", "quantifier": "every box, periodicity and radius", "why_tests_cant": "The completeness claim quantifies over all lattice translations.", "anchors": ["freud/locality/AABBQuery.h: AABBIterator::updateImageVectors"]}
{"id": "C28", "title": "AABB tree contains every point exactly once and its nodes enclose their children", "statement": "For every non-empty point set, building the tree yields nodes whose boxes enclose everything below them (every node a skip pointer jumps over), every particle is stored in exactly one leaf, leaves hold 1 to 16 particles, and the stackless skip-pointer traversal returns exactly the particles of the leaves whose box overlaps the query box, each once: no overlapping particle is ever skipped.", "quantifier": "every point set of any size (including coincident points) and every query box", "why_tests_cant": "The tree shape depends on data; skip pointers wrong in rare shapes lose particles silently.", "anchors": ["freud/locality/AABBTree.h: AABBTree::buildTree, buildNode, updateSkip", "freud/locality/AABB.h: overlap, merge", "freud/locality/AABBQuery.cc: AABBQueryBallIterator::next"]}
{"id": "C29", "title": "Ball query returns exactly the neighbours in range (AABB)", "statement": "AABBQuery ball query of wrapped points with 0 <= r_min returns for each query point exactly the pairs (j, image) with r_min <= |p_j - (q + image)| < r_max (minus i = j when exclude_ii), each exactly once with the right distance, vector and unit weight, i.e. it equals the brute-force definition over all lattice images; it always terminates and raises exactly when r_max <= 0, r_max <= r_min or r_max is at least half a periodic plane distance. Deviations (refuted): query points more than one cell outside the box lose neighbours, and a negative r_min hides neighbours because it is squared.", "quantifier": "every box, point set, query point and admissible radius", "why_tests_cant": "Equality with brute force over all lattice images and all point sets.", "anchors": ["freud/locality/AABBQuery.cc: AABBQueryBallIterator::next", "freud/locality/AABBQuery.h"]}
{"id": "C30", "title": "Ball query returns exactly the neighbours in range (LinkCell)", "statement": "In a fully periodic box, for every cell width > 0 with which LinkCell was constructed and every query point in the box, the ball query terminates and returns each bond once: exactly the points whose wrapped displacement has length in [r_min, r_max) (with exclude_ii), for every r_max; if r_max is below half of every plane distance this is the brute-force definition over all lattice images. The cell list stores every point in exactly one cell. Construction succeeds for points in the box and 2*cell_width <= every plane distance. (Refuted: LinkCell accepts r_max beyond half the box, where images in range are dropped; it accepts negative cell widths, with which the query never ends; indexToCoord is not the inverse of coordToIndex.)", "quantifier": "every box, point set, query point, cell width and admissible radius", "why_tests_cant": "Cell boundary cases and shell-count rounding.", "anchors": ["freud/locality/LinkCell.cc: LinkCell, LinkCellQueryBallIterator::next, getCell", "freud/locality/LinkCell.h: IteratorCellShell"]}
{"id": "C31", "title": "Ball query returns exactly the neighbours in range (CellQuery)", "statement": "For points and a query point inside the box (at most 2^31 points), CellQuery accepts a ball query exactly when 0 < r_max, r_min < r_max and r_max is below half of every periodic plane distance, and then delivers each bond of the brute-force definition over all lattice images exactly once; a grid built for a cutoff answers every query with a smaller r_max exactly. The periodic flags of the box are ignored. Documented failures: an iteration that is still pending when a later query rebuilds the grid with a smaller cutoff loses neighbours, and points outside the box are missed.", "quantifier": "every box, point set, query point and admissible radius", "why_tests_cant": "Cell boundary and ghost-image cases.", "anchors": ["freud/locality/CellQuery.h", "freud/locality/CellQuery.cc", "freud/locality/CellIterator.h"]}
{"id": "C32", "title": "All neighbour-finding backends agree", "statement": "In a fully periodic box with all points and query points in the cell, for every ball query with 0 <= r_min < r_max and r_max below half of every plane distance, AABBQuery, LinkCell (any usable cell width), CellQuery and a plain (box, points) pair return for each query point the same bonds (the brute-force set, each once), and the NeighborLists built from them are equal bond by bond for every parallel schedule and either sort order.", "quantifier": "every system and every admissible ball query", "why_tests_cant": "Quantifies over pairs of algorithms and all inputs.", "anchors": ["freud/locality/AABBQuery.cc", "freud/locality/LinkCell.cc", "freud/locality/CellQuery.cc", "freud/locality/RawPoints.h"]}
{"id": "C33", "title": "Cell shells enumerate each cell once, outwards", "statement": "Iterating IteratorCellShell from range 0 visits the integer cells in order of non-decreasing Chebyshev distance, every cell exactly once (in 2D exactly the cells with z = 0), the iterator's range being the distance; the loop 'for (iter(0); iter != IteratorCellShell(N); ++iter)' ends, after having examined exactly the cells at distance below N.", "quantifier": "every range, 2D and 3D", "why_tests_cant": "Enumeration over unbounded ranges with face/edge/corner special cases.", "anchors": ["freud/locality/LinkCell.h: IteratorCellShell", "freud/locality/LinkCell.cc: IteratorCellShell::operator++, operator*"]}
{"id": "C34", "title": "k-nearest-neighbour query returns the k nearest", "statement": "AABBQuery: with 0 < r_guess <= half the smallest plane distance (the default guess always is) and scale > 1, a nearest query for k neighbours terminates and returns per query point a list of at most k bonds, no point twice, sorted by distance, each bond the nearest of the 27 images of its point; a candidate that is not returned is at least as far as all returned ones when k are returned, and at least min(r_max, largest plane distance)/scale away when fewer are. If k are returned, all closer than the smallest plane distance, they are k nearest points over all lattice images. LinkCell: the same without r_guess and scale, where a candidate missing from a short list is at least half the smallest plane distance away and the shells searched do not cover the grid. So both backends return the same distances whenever k are found within half the smallest plane distance. Refuted without these limits: AABBQuery stops before r_max is reached and drops points closer than r_max; r_guess above half the box returns one point twice; LinkCell misses the only neighbour in an elongated box.", "quantifier": "every periodic box, point set, query point, k, r_guess, scale, r_max, r_min and exclude_ii, every order of equal distances", "why_tests_cant": "The failing inputs need particular ratios of r_guess, scale and r_max.", "anchors": ["freud/locality/AABBQuery.cc: AABBQueryIterator::next", "freud/locality/LinkCell.cc: LinkCellQueryIterator::next"]}
{"id": "C35", "title": "Queries in non-periodic boxes", "statement": "AABBQuery and LinkCell raise for every query on a box that is not periodic in all directions. Refuted for a plain (box, points) pair and for CellQuery: both answer, the first with open boundaries and the second with periodic ones, so their results differ.", "quantifier": "every box and every query backend", "why_tests_cant": "Combination of backend and periodicity.", "anchors": ["freud/locality/NeighborQuery.h: NeighborQuery::query", "freud/locality/RawPoints.h", "freud/locality/CellQuery.h"]}
{"id": "C36", "title": "Periodic buffer contains every image in the buffer zone once", "statement": "PeriodicBuffer.compute(buffer, images=False) on points of the primary cell returns exactly the lattice images of the points that lie in the cell enlarged by the buffer along each lattice direction (the point itself only with include_input_points), each (image, id) pair once; with images=True and integer n it returns exactly the lattice images in the box of (1+n) cells, without the one congruent to the point itself unless asked for, (1+nx)(1+ny)(1+nz) per point; the buffer box has lengths L+2*buffer or (1+n)L and the tilts of the box; only negative buffers raise. In a box without tilt the buffer holds every image closer than the buffer distance to the cell. Refuted: for tilted boxes images closer than the buffer distance are missed; images are also made across non-periodic directions; points outside the cell lose images.", "quantifier": "every box, point set and buffer argument (2D and 3D)", "why_tests_cant": "Quantifies over all lattice images.", "anchors": ["freud/locality/PeriodicBuffer.cc: PeriodicBuffer::compute"]}
{"id": "C37", "title": "SANN picks the smallest self-consistent neighbour shell", "statement": "FilterSANN keeps for each query point the m nearest bonds where m >= 3 is the smallest number with sum_{k<=m} r_k/(m-2) <= r_{m+1}; if no such m exists all bonds are kept when incomplete shells are allowed and an exception is raised otherwise. The result is defined for every list having a bond; for an empty list with incomplete shells allowed it is refuted to be defined.", "quantifier": "every reachable neighbour list, every schedule of the parallel loop, every resolution of sorting ties", "why_tests_cant": "Minimality over unbounded lists.", "anchors": ["freud/locality/FilterSANN.cc: FilterSANN::compute", "freud/locality/Filter.h: warnAboutUnfilledNeighborShells"]}
{"id": "C38", "title": "RAD keeps exactly the unblocked neighbours", "statement": "With neighbours ordered by (distance, point index): RAD-open keeps exactly the neighbours not blocked by an earlier one under the solid-angle criterion (R_j/r_j)^2 < (R_k/r_k)^2 cos(theta_jk); RAD-closed keeps the maximal unblocked prefix; RAD-closed is a subset of RAD-open; RAD-closed raises exactly when incomplete shells are disallowed and some query point has no blocked neighbour. With equal radii only strictly nearer neighbours can block; with unequal radii this is refuted for ties.", "quantifier": "every reachable neighbour list storing wrapped non-zero distances, every radii array, every schedule", "why_tests_cant": "Pairwise blocking over unbounded lists.", "anchors": ["freud/locality/FilterRAD.cc: FilterRAD::compute"]}
{"id": "C39", "title": "Clusters are the connected components", "statement": "Cluster.compute assigns the same cluster index to two points exactly when they are joined by a path of bonds, for every interleaving of the parallel merge operations. The computation always ends: for every distribution of the bonds over threads and every scheduling the merge cannot run forever, and from every completed merge the remaining passes run to a result, so for every set of bonds there is exactly one numbering and compute gives it.", "quantifier": "every neighbour list, every schedule of the lock-free union-find", "why_tests_cant": "The number of interleavings of the lock-free operations is unbounded.", "anchors": ["freud/cluster/Cluster.cc: Cluster::compute", "extern/dset/dset.h: DisjointSets::find, unite, same"]}
{"id": "C40", "title": "Cluster numbering is canonical", "statement": "Cluster indices are 0..num_clusters-1 without gaps, sorted by decreasing size with ties broken by the smallest member index; cluster_keys[c] lists exactly the keys of the members of c in increasing order of point index; this determines the numbering uniquely, so the whole result does not depend on the distribution of bonds over threads, their interleaving or the union-find representatives chosen.", "quantifier": "every system and every choice of representatives", "why_tests_cant": "Depends on representatives chosen by the schedule.", "anchors": ["freud/cluster/Cluster.cc: Cluster::compute, sort_indexes_inverse"]}
{"id": "C41", "title": "Concurrent union-find computes the generated partition", "statement": "In the lock-free disjoint-set structure, for every interleaving of the atomic steps of any number of threads performing find/same/unite: at every moment every parent chain ends in a root and two elements with the same root are connected by pairs passed to unite; once all operations have finished two elements have the same root exactly when they are connected by united pairs, and every find result and every positive answer of same given on the way is right; queries made after the unites (again concurrently) answer exactly: same(a,b) is true, and find(a) = find(b), exactly when a and b are connected. At every moment the rank of every element is at most the binary logarithm of the number of elements (also while Cluster merges its bonds), so with fewer than 2^32 elements the rank is at most 31, the 64-bit entry never overflows into the lock flag, rank() and parent() give back what was stored, and a compare-exchange of entries compares exactly rank and parent. No execution is infinite, whatever the scheduling (no fairness is assumed, weak compare-exchanges may fail spuriously), and an execution that cannot go on has finished every operation of every thread; likewise for Cluster's merge phase. While others are still uniting, a thread may rely on what is already there: same(a,b) answers true whenever a and b are connected by pairs that threads finished before it started, or that thread itself earlier, have united or found to be the same.", "quantifier": "every number of threads, every program of unites, every interleaving of atomic steps", "why_tests_cant": "Interleavings of atomic steps are unbounded; races are not reproducible in tests.", "anchors": ["extern/dset/dset.h: DisjointSets::find, DisjointSets::same, DisjointSets::unite"]}
{"id": "C42", "title": "Cluster properties use each particle's own data", "statement": "ClusterProperties: sizes count the members and cluster_masses sum the members' own masses; centers are the periodic centres of the members; gyrations are the mean products of the minimum-image displacements from the reported centre; inertia_tensors and radii_of_gyration are the mass-weighted moments about the reported centre of mass with each particle's own mass; centers_of_mass are the mass-weighted periodic centres when no masses are given, when all masses are equal, or when the points are sorted by cluster. (Refuted in general: the masses for the centre of mass are read contiguously per cluster instead of per particle, and a masses array shorter than the points is read beyond its end.)", "quantifier": "every box, point set, labelling and mass array", "why_tests_cant": "Misalignment is invisible when masses are equal or particles are sorted by cluster.", "anchors": ["freud/cluster/ClusterProperties.cc: ClusterProperties::compute"]}
{"id": "C43", "title": "Environment clusters are components of aligned environments", "statement": "EnvDisjointSet keeps a partition: after any sequence of merge calls with one-to-one vector maps, two environments are in the same set exactly when connected by merged pairs, and every vec_ind stays a permutation of the environment's vectors. EnvironmentCluster.compute on a new object always succeeds and labels points 0..num_clusters-1 in order of first appearance so that clusters are the connected components of a subset of the neighbour list's bonds; across each of those bonds point_environments agree index by index within the threshold; point_environments[i] is i's own neighbour vectors reordered (rotated by one orthonormal matrix when registration is on); cluster_environments[c][k] is the mean of point_environments[i][k] over the members of c.", "quantifier": "every sequence of merges; every number of points, neighbour lists, threshold and registration outcome", "why_tests_cant": "Unbounded sequences of merges with evolving permutations.", "anchors": ["freud/environment/MatchEnv.h: EnvDisjointSet", "freud/environment/MatchEnv.cc: EnvDisjointSet::merge, find, findSet", "freud/util/BiMap.h: BiMap"]}
{"id": "C44", "title": "Environment matching is a sound one-to-one correspondence", "statement": "When matching without registration reports a map, it is a bijection between the two vector sets pairing vectors closer than the threshold. When one set's vectors are at least two thresholds apart, a match is reported whenever one exists, so EnvironmentCluster's clusters are exactly the components of bonds between matching non-empty neighbourhoods, and EnvironmentMotifMatch.matches is exact; a matched point's reported environment agrees with the wrapped motif index by index, and whether a point matches does not depend on other points. (Refuted without separation: the greedy search misses existing matchings.)", "quantifier": "every pair of vector sets, box, threshold, neighbour lists", "why_tests_cant": "Existence of a perfect matching over unbounded sets.", "anchors": ["freud/environment/MatchEnv.cc: isSimilar", "freud/util/BiMap.h: BiMap::emplace"]}
{"id": "C45", "title": "Recomputing an environment object forgets the previous system", "statement": "After any history of compute() calls, cluster_idx, num_clusters and cluster_environments are those a new object would report. (Refuted for point_environments, both for EnvironmentCluster and EnvironmentMotifMatch: new environments are appended to those of earlier calls.)", "quantifier": "every history of compute calls", "why_tests_cant": "Needs repeated use of one object with comparison to a fresh one.", "anchors": ["freud/environment/MatchEnv.cc: EnvironmentCluster::populateEnv, EnvironmentMotifMatch::compute", "freud/environment/MatchEnv.h: MatchEnv::m_point_environments"]}
{"id": "C46", "title": "Angular separations use the orientations of the bond's own ends", "statement": "For equivalent orientations forming a symmetry group closed under sign, composition and inversion, the angle between two unit orientations is the least angle in [0, pi] of the rotation taking one to an equivalent of the other; it does not depend on the order of the two, their signs, or which equivalent copy is given. When the points query themselves, AngularSeparationNeighbor.angles[k] is that angle for the two ends of bond k, and AngularSeparationGlobal.angles[i, j] that of orientation i and global orientation j, whatever the partition of the work among threads. (Refuted when query points differ from points: the two orientation arrays are indexed with swapped indices, bonds of query points beyond the number of points stay 0, and a read can be out of bounds. Refuted for the default equivalent orientations, a single identity: q and -q are reported 2*pi apart.)", "quantifier": "every system with separate query points and every neighbour list", "why_tests_cant": "Invisible when query points equal points.", "anchors": ["freud/environment/AngularSeparation.cc: AngularSeparationNeighbor::compute, computeMinSeparationAngle"]}
{"id": "C47", "title": "Every neighbour bond gets its local descriptors in the frame of its query point", "statement": "LocalDescriptors.sph[k] is the row of spherical harmonics at the polar and azimuthal angle of bond k in the frame of its query point (principal axes of the inertia tensor of the bonds used, the particle's own orientation, or the lab frame), for every bond among the first max_num_neighbors of its query point (all if 0), whatever the schedule; with mode particle_local nothing changes when bonds and orientations are turned together, and the inertia tensor turns with the bonds. (Refuted when there are more query points than points: the loop runs over the number of points and the remaining rows stay zero.)", "quantifier": "every system and neighbour list", "why_tests_cant": "Invisible when query points equal points.", "anchors": ["freud/environment/LocalDescriptors.cc: LocalDescriptors::compute"]}
{"id": "C48", "title": "Bond order diagram counts every bond and its bins tile the sphere", "statement": "The surface area of each bin is the integral of sin(phi) over its cell, positive, and the areas sum to 4*pi; fewer than two bins per angle are rejected. Each mode (bod, lbod, obcd, oocd) bins the vector it documents, and every direction falls in exactly one bin, the one containing its spherical angles. After any history of compute calls with or without reset, bond_order * area * number of frames since the last reset is the number of bonds in the bin, for any thread schedule (modulo 2^32 in the counter). (Refuted for a bond pointing exactly along -z, which is dropped.)", "quantifier": "every bin count and every bond direction", "why_tests_cant": "Measure-zero pole direction; unbounded bin counts.", "anchors": ["freud/environment/BondOrder.cc: BondOrder::BondOrder, BondOrder::accumulate"]}
{"id": "C49", "title": "RDF cumulative count and normalisation", "statement": "RDF rejects exactly zero bins, r_max <= 0, r_min < 0 and r_max <= r_min. After any history of compute (with or without reset), mode changes and reads: rdf[i] times shell volume (the integral of the surface), density of the query points (N, or N-1 for finite_size, over the volume), number of points and number of frames is the number of bonds in bin i since the last reset; n_r[i] times query points and frames is the number of bonds from r_min to the end of bin i; n_r is non-decreasing and ends at the average number of bonds in range; the shells add up to the full shell; any thread schedule. (Refuted: setting normalization mode after reading has no effect until the next compute; with frames of different sizes the result is neither the mean over frames nor over all query points, because the last frame's numbers are used.)", "quantifier": "every sequence of frames, resets, reads and mode changes, every bin count, box, number of points and schedule", "why_tests_cant": "Unbounded bins and frames.", "anchors": ["freud/density/RDF.cc: RDF::RDF, RDF::reduce, RDF::accumulateRDF"]}
{"id": "C50", "title": "Correlation function is the bin-wise mean", "statement": "For every sequence of compute(reset true or false) and reads of CorrelationFunction on well-formed input (values of length N_points, query_values of length N_query_points), after a read each bin holds the mean of conj(value of the point) * (value of the query point) over the bonds of all frames since the last reset whose distance lies in that bin, and zero if there is none, whatever the schedules of the bond loops and of the two reductions (fewer than 2^32 bonds per bin). The constructor raises exactly when bins = 0 or r_max <= 0; arrays of the wrong length raise. If all values since the last reset are real a real array is returned and the imaginary parts dropped are all zero; if any value is complex a complex array is returned. Refuted: with query_values omitted and more query points than points the documented default reads outside the values array.", "quantifier": "every number of bins and r_max, every history of computes and reads, every bond list, value array and schedule", "why_tests_cant": "Unbounded lists and schedules.", "anchors": ["freud/density/CorrelationFunction.cc: CorrelationFunction::accumulate, reduce"]}
{"id": "C51", "title": "Local density counts each neighbour between 0 and 1", "statement": "LocalDensity: num_neighbors of a query point is the sum, over its neighbors, of the fraction of the neighbor inside the sphere, min(1, (r_max - (d - D/2))/D): 1 exactly when the neighbor lies entirely inside, 1/2 at distance r_max, between 0 and 1 exactly for d <= r_max + D/2, monotone and Lipschitz in the distance; density times the disc area / ball volume of r_max is num_neighbors. With the default neighborhood the sum runs over every periodic image nearer than r_max + D/2, whatever backend finds the neighbors, and D = 0 counts neighbors. The result does not depend on the schedule; r_max <= 0 or D < 0 are rejected. (Refuted: neighbors from a user's list beyond r_max + D/2 contribute negative amounts instead of zero.)", "quantifier": "every system, neighbor list or default query, radius, diameter and schedule", "why_tests_cant": "A test samples finitely many boxes and positions out of an infinite domain; continuity and monotonicity are universal statements.", "anchors": ["freud/density/LocalDensity.cc: LocalDensity::compute"]}
{"id": "C52", "title": "Sphere voxelization marks exactly the covered voxels", "statement": "SphereVoxelization.voxels holds only 0 and 1; a voxel holding 1 has its centre closer than r_max to a particle in the periodic metric, and every voxel that is closer is marked when the fractional part of r_max over the cell size is at most 1/2 in each direction or the window spans the periodic box (in general: when its separation is at most r_max minus half a cell in the other directions). This holds for orthorhombic boxes, every order of the parallel writes, r_max up to the box length. A call with the other dimension than the first one raises, after any history of calls. (Refuted: in general voxels at distance below r_max stay unmarked since the window is truncated; in tilted boxes voxels far from all particles are marked.)", "quantifier": "every orthorhombic box (2D or 3D, any periodicity), point set, grid, radius, order of parallel writes and history of calls", "why_tests_cant": "Boundary between grid rounding and radius: the failing voxels sit in a thin shell near r_max, and races only show under particular schedules.", "anchors": ["freud/density/SphereVoxelization.cc: SphereVoxelization::compute"]}
{"id": "C53", "title": "Gaussian density treats every particle's neighbourhood once", "statement": "GaussianDensity.density at a voxel is the sum over particles of value times the normalised D-dimensional Gaussian of the periodic distance to the voxel centre when that is below r_max, and 0 otherwise, each particle once, for orthorhombic boxes when the window of bins neither exceeds the grid (2 floor(r_max/cell) < width) nor is truncated by more than half a cell; without the latter only voxels whose separation is within half a cell of r_max may miss a particle. The result is the same for every schedule. Wrong-length values raise; a call with the other dimension than the first raises after any history. (Refuted: voxels near the edge of the window are missed; when the window exceeds the grid a particle is counted twice.)", "quantifier": "every orthorhombic box, point set, values, grid, radius, sigma, schedule and history of calls", "why_tests_cant": "Boundary between grid rounding, wrap-around and radius.", "anchors": ["freud/density/GaussianDensity.cc: GaussianDensity::compute"]}
{"id": "C54", "title": "PMFT normalisation, coordinates and call history", "statement": "For PMFTR12, PMFTXY, PMFTXYT and PMFTXYZ with positive extents, after any history of compute calls (with or without reset, accepted or rejected) and reads, a read returns in every bin b the value c with c * (frames * points * query points * equivalent orientations * measure of b) = volume * (number of points of the counted frames falling in b), where the counted frames are the accepted calls since the last reset, volume and numbers of points are those of the last of them, and the measure is the exact area/volume of the bin (angles that are averaged over enter as a fraction of 2 pi). A call is accepted exactly when its arrays have the right shape, the box has the right dimension and, for XYZ, its number of equivalent orientations is the one of the first well-shaped call since the last reset. Each bond contributes the coordinates of its point in the frame of its own query point and the angles of its own ends; turning the whole system changes nothing; seen from the other side an R12 bond has its two angles exchanged. Empty bins report +infinity. Not true, with counterexamples: a rejected call leaves the object unchanged (a call rejected for a 2D box fixes the number of equivalent orientations and makes a later valid call fail); all accepted arguments stay inside the arrays (query_orientations omitted with more query points than points reads past the end); shiftvec acts on NeighborLists; extents of zero are rejected.", "quantifier": "every extent and bin number, every history of calls and reads, every frame, bond list, thread schedule and orientation", "why_tests_cant": "Unbounded histories, schedules and configurations; tests use fixed small systems.", "anchors": ["freud/pmft/PMFT.h", "freud/pmft/PMFTR12.cc", "freud/pmft/PMFTXY.cc", "freud/pmft/PMFTXYT.cc", "freud/pmft/PMFTXYZ.cc", "freud/pmft.py"]}
{"id": "C55", "title": "MSD values over every call history", "statement": "For every trajectory of N frames and every window length m < N the window mode (running sums plus FFT autocorrelation) gives exactly the mean over all N-m windows of the squared displacement, and the direct mode the squared displacement from frame 0. After any history of compute calls, accepted or rejected, with or without reset, particle_msd has one column for each particle of the accepted calls since the last reset and msd is the mean over these particles, however they are split over calls; values are non-negative, zero at m=0 and unchanged by moving a trajectory. Wrapped positions with their images and a box give the MSD of the unwrapped trajectory. Not true, with counterexamples: a rejected call leaves earlier results alone (with reset they are gone and reading fails inside numpy although the object counts as computed); images are used or refused when there is no box (they are silently ignored); a call whose number of frames differs is rejected (it is accepted and makes the results unreadable).", "quantifier": "every number of frames and particles, every trajectory, every window length, every history of calls", "why_tests_cant": "Identity between an FFT/recurrence algorithm and its definition for all lengths; unbounded histories.", "anchors": ["freud/msd.py: _autocorrelation, MSD.compute, MSD.msd, MSD.particle_msd"]}
{"id": "C56", "title": "Nematic tensor is symmetric and traceless with bounded order", "statement": "Nematic.compute accepts exactly orientation arrays with three columns. After any sequence of earlier calls on the same object and under any schedule, every particle tensor is (3 u u^T - 1)/2 for the orientation made a unit vector and the nematic tensor is their average, symmetric and traceless; it is NaN in every entry when there is no particle or when some orientation is the zero vector. For every unit direction m the value m.Q.m is the average of (3 cos^2 - 1)/2, lies in [-1/2, 1], is 1 exactly when all orientations are parallel to m and -1/2 exactly when all are perpendicular. Given a correct eigenvalue solver, the order is the largest such value, attained at the director, lies in [0, 1] and is 1 exactly when all orientations are parallel to the director. The tensor depends only on the lines of the orientations (non-zero rescaling or flipping any subset changes nothing), not on their order, and turning everything turns the tensor and keeps the order.", "quantifier": "every orientation list, every history of earlier calls, every thread schedule, every unit direction, every solver result meeting the eigenvector contract", "why_tests_cant": "Unbounded lists; sign invariance over all subsets.", "anchors": ["freud/order/Nematic.cc: Nematic::compute"]}
{"id": "C57", "title": "Hexatic order parameter: value, bound, equality, symmetry", "statement": "Hexatic.compute rejects exactly the 3D boxes; otherwise, for every schedule, particle_order[i] is the weighted mean over the bonds of point i of the k-th power of the unit direction (as a complex number) of the wrapped vector to the neighbour, and NaN exactly when the weights add up to zero (no neighbours). For non-negative weights the modulus is at most 1, and equal to 1 exactly when all bonds of positive weight have the same k-th power (ideal k-fold environments give e^(i k phi)). Bond order and a common factor of the weights do not matter; turning all bonds by an angle multiplies the value by e^(i k angle) and keeps the modulus. Not true, with counterexample: the bound for negative weights, which a NeighborList accepts.", "quantifier": "every k, every 2D box, point set, neighbour list, weights and schedule", "why_tests_cant": "Inequality and its equality case over all lists of angles and weights.", "anchors": ["freud/order/HexaticTranslational.cc: HexaticTranslational::computeGeneral", "freud/order/HexaticTranslational.h: Hexatic"]}
{"id": "C58", "title": "Solid-liquid filtering and clustering", "statement": "SolidLiquid, after any earlier calls (completed or rejected) on the same object: the constructor rejects exactly negative q_threshold, a non-integer solid_threshold is rounded down; compute raises exactly when the neighbour list was made for other numbers of points; ql_ij holds one value per bond, in bond order, namely Re sum_m q_lm(i) conj q_lm(j), divided by both norms when normalize_q (NaN if the other end has no neighbours or a norm vanishes); this equals (2l+1)/(4 pi) times the mean over pairs of bonds of the Legendre polynomial of their cosine, so it is unchanged by rotations and the same for a bond and its reverse; normalised values lie in [-1, 1]; num_connections counts the bonds of a particle above q_threshold; cluster_idx numbers, canonically and independently of threads, the connected components of the bonds above threshold whose two ends both have at least solid_threshold connections; a particle below that count is alone; largest_cluster_size is the largest size, undefined without particles. Refuted: that more than solid_threshold bonds are required, that nlist holds only solid-like bonds, and that largest_cluster_size is about solid-like particles (it is 1 when there are none). A call whose sizes match always comes to a result: however the solid-like bonds are dealt out to threads the clustering ends, and all results agree in number, indices and keys of the clusters.", "quantifier": "every call history, box, points, neighbour list, l, thresholds, normalisation, thread schedule of the harmonics, the bond loop and the union-find", "why_tests_cant": "Composition of two filters and clustering over unbounded inputs.", "anchors": ["freud/order/SolidLiquid.cc: SolidLiquid::compute", "freud/order/SolidLiquid.h", "freud/order.py: SolidLiquid"]}
{"id": "C59", "title": "Quaternion rotations are isometries consistent with rotation matrices", "statement": "For unit quaternions rotate(q, v) preserves lengths, dot and cross products, rotate(conj q) inverts it, rotate(a*b) = rotate(a) after rotate(b), the rotation matrix of q gives the same map and has determinant 1, the matrix of a product/conjugate/negation is the product/transpose/same matrix; from axis and angle q turns by that angle about that axis; converting any rotation matrix to a quaternion and back gives the matrix, and converting a unit quaternion to a matrix and back gives q up to sign; the 2D rotations agree with the 3D ones about z. An improper matrix never survives the round trip.", "quantifier": "every quaternion and vector", "why_tests_cant": "A test samples finitely many boxes and positions out of an infinite domain; algebraic identities with branch selection.", "anchors": ["freud/util/VectorMath.h: rotate, operator*(quat,quat), rotmat3, quat(rotmat3), conj"]}
{"id": "C60", "title": "Results are unavailable before compute", "statement": "For every analysis class except MSD and every sequence of compute calls, successful or failing: reading a result or plot raises AttributeError exactly when no obj.compute(...) has succeeded, so hasattr tells whether results exist. The results are what the successful calls since the last erasing call make of a fresh object (all successful calls for classes without reset). A failing call changes no result of a class without reset, nor when reset=False. DiffractionPattern's k-grid is written whenever its results are readable. Refuted: classes with reset erase before validating, so a failing call with the default reset=True destroys earlier results while they stay readable; MSD marks itself before validating, so after a failed first call reading raises ValueError instead of AttributeError; calling compute through the class leaves results unreadable.", "quantifier": "every class in freud, every sequence of compute calls (through the object or the class, successful, failing before or after erasing) and every property", "why_tests_cant": "Unbounded call histories including failures.", "anchors": ["freud/util.py: _Compute", "freud/msd.py: MSD.compute", "freud/density.py: RDF.compute", "freud/diffraction.py: DiffractionPattern.compute", "freud/order.py: ContinuousCoordination.compute"]}
{"id": "C61", "title": "Cubatic order: values, bounds, perfect order, symmetries, seeds and replicates", "statement": "Cubatic accepts exactly the settings with t_final <= t_initial, t_final >= 1e-6 and 0 < scale < 1; n_replicates = 0 is accepted and every compute then raises. For every non-empty list of orientations, every seed, generator and schedule, compute ends with: global_tensor the average of the cube tensors of the particles; particle_order[i] = 1 - |global - cube_i|^2/|cube_i|^2, never undefined (|cube|^2 > 0 for every quaternion, 24/5 for unit ones); orientation a unit quaternion; cubatic_tensor its cube tensor; order the match of the two. For unit orientations orders lie in [-7/3, 1]; particle orders average to |global|^2/(24/5), in [0, 1]; all particle orders are 1 exactly when all particles show the same cube up to its symmetries; turning the system, replacing orientations by cube-equivalent ones or reordering particles changes no particle order. Global tensor and particle orders depend on no setting, seed or schedule. The annealed order is the same for every execution of the same cutting of the replicates and, with one replicate, for every schedule; with more replicates it is never below that of one replicate with the same seed. Refuted: that a fixed seed fixes the result (two replicates, cut into one chunk or two, give -2/3 and 1), and that the order returned is the best match (-2/3 for a perfect system). Starting orientations are turned by at most one radian, not distributed over all orientations. The order returned is at least that of a starting orientation that depends on the seed alone, less t_initial ln(1/u0)/(1 - scale), where u0 is a lower bound of the uniform numbers drawn.", "quantifier": "every list of orientations, settings, seed, stream of random numbers, and every schedule and cutting of the three parallel loops", "why_tests_cant": "The result is random and schedule dependent: on one machine tests may always see the same cutting, and approximate comparisons on sampled systems cannot establish bounds or when order 1 is reached.", "anchors": ["freud/order/Cubatic.cc:25-357", "freud/order/Cubatic.h", "freud/order.py:36-135"]}
{"id": "C62", "title": "Steinhardt: values, bounds and invariances over every call history", "statement": "After any history of calls, Steinhardt.compute gives particle_harmonics equal to the (weighted) mean of the spherical harmonics of the neighbour directions, NaN when the weights sum to zero; ql is sqrt(4 pi/(2l+1) sum |q_lm|^2) of that mean, or with average of the mean over the particle and its neighbours; order is the invariant of the mean over all particles; with wl the sum over all m1+m2+m3=0, each triple once, with the table's coefficients, optionally divided by (sum |q_lm|^2)^(3/2); compute fails only when wl is set and there is no table for l. q_l^2 is the weighted mean of P_l(cos angle) over pairs of bonds, so for non-negative weights 0 <= q_l <= 1, with 1 exactly when every two bonds have P_l(cos) = 1; ql and order are unchanged by rotating or reflecting the system, reordering neighbours and scaling weights, independent of the schedule. Refuted: ql is not the plain q_l when average is set; NaN also reaches particles with neighbours when average is set; bonds of length zero break rotation invariance; negative weights break the bound.", "quantifier": "every l, box, point set, neighbour list, weights, option combination, call history and parallel schedule", "why_tests_cant": "Tests compare a few crystals at a few l with stored numbers; the addition theorem behind invariance and the bound ranges over all l and all neighbour sets, and stale thread-local sums depend on history and schedule.", "anchors": ["freud/order/Steinhardt.cc:88-357", "freud/order/Steinhardt.h:60-130", "freud/order/Wigner3j.cc:17-57", "freud/order.py:375-600"]}
{"id": "C63", "title": "Thread-count context manager restores the previous setting", "statement": "set_num_threads accepts None, negative numbers and every integer below 2^32; get_num_threads then reports the setting (0 for None and negatives) and TBB runs with exactly that many threads (all hardware threads for 0); any other argument raises and leaves TBB unchanged. After 'with NumThreads(a): body' the number reported and the parallelism used are those from before, for every body: nested contexts to any depth, set_num_threads calls good or bad, exceptions caught or not; and the body's outcome is preserved. In every program whose arguments are acceptable the number reported and the parallelism used agree. Refuted: a stored manager restores the value at its construction, not at entry; a rejected number is nevertheless reported by get_num_threads afterwards, also after a with statement that could not be entered.", "quantifier": "every program built from set_num_threads, construction, entry and exit of managers, with statements, sequencing, exceptions and handlers, from every state", "why_tests_cant": "Needs interleavings of construction and entry.", "anchors": ["freud/parallel.py: get_num_threads, set_num_threads, NumThreads", "freud/parallel/tbb_config.cc: setNumThreads"]}
{"id": "C64", "title": "Replicated unit cells tile the big box", "statement": "UnitCell.generate_system(n, scale): raises ValueError exactly when n is not one positive whole number or three of them ((nx, ny, 1) in 2D) or scale is not positive; otherwise the box has nx, ny, nz times the lattice vectors of the cell times scale, the tilts of the cell, and is periodic; there are basis_count * nx*ny*nz points, all in the half-open box, in the order of numpy.repeat over the basis; up to the lattice of the box point (id, i, j, k) is scale times (basis point + i a1 + j a2 + k a3 + one common displacement) plus its noise. Without noise, for cells without tilt or when all replica counts have the same parity, the points of each basis point are exactly the points of the box at that fractional position within the nx x ny x nz grid of equal cells, each once. Refuted for tilted cells with mixed parities: the displacement is multiplied component-wise, and the crystal is moved off the grid.", "quantifier": "every unit cell, basis, replica argument, scale and noise", "why_tests_cant": "Unbounded replica counts.", "anchors": ["freud/data.py:44-151 UnitCell.generate_system", "freud/locality/PeriodicBuffer.cc", "freud/box.py: Box.__mul__"]}
{"id": "C65", "title": "Binning, the positive modulus and wrapping in single precision", "statement": "In IEEE binary32 arithmetic, with every rounding of the code: for an axis with at most 2^22 bins, bin width at least 2^-125 and range at most 2^126, a finite value gets the overflow marker exactly when it is outside [min, max), and otherwise an index below the number of bins; bins are monotone in the value, min gets bin 0, the bin is the exact one unless the value is within 6u\u00b7n bins of an edge (u = 2^-24) and within one of it for at most 2^21 bins; infinities overflow; a tuple of values in range gets an index inside the array of counts. The positive modulus of a finite a by 0 < b <= 2^126 is in [0, b) and congruent to a up to 2u\u00b7b; so every finite angle gets a bin on an axis from 0 to 2 pi. Wrapping a point of size up to 2^60 in a box without tilt gives coordinates in [-L/2, L/2) along periodic directions, equal to the original up to whole box lengths and 6u(|v|+L). Refuted: NaN is rejected; every finite axis bins in bounds (too tiny, too huge and too many bins fail); the reported edges are those used; points inside stay put; wrapping twice is wrapping once; the modulus of large b.", "quantifier": "every binary32 axis, value, modulus, angle, untilted box and point within the stated sizes (all of them, not samples)", "why_tests_cant": "Each claim ranges over 2^32 values per argument and several arguments; the failing cases are single bit patterns.", "anchors": ["freud/util/Histogram.h:123-179", "freud/util/Histogram.h:327-351", "freud/util/utils.h:29-32", "freud/box/Box.h:100-115", "freud/box/Box.h:212-255", "freud/box/Box.h:307-329", "freud/pmft/PMFTXYT.cc:97", "freud/pmft/PMFTR12.cc:104-108", "freud/environment/BondOrder.cc:142-143"]}
{"id": "C66", "title": "Static structure factors are the averages they claim to be, over histories and schedules", "statement": "StaticStructureFactorDirect: the constructor accepts exactly bins > 0 and 0 <= k_min < k_max; after any sequence of compute calls (reset or not, changing boxes, partial or total) and reads, every bin of S_k is the mean of S(k) = (1/N) sum exp(i k.r_ij) over all (frame, sampled k vector) pairs since the last reset with |k| in the bin and 0 if there is none, min_valid_k is the smallest 2 pi/L of those frames, k_points the vectors of the last frame. Every sampled vector is a reciprocal lattice vector with k_min <= |k| <= k_max, none occurs twice; in orthorhombic boxes without pruning all vectors of the scanned octant are there. The total S(k) is real, in [0, N], S(0) = N; partials are symmetric, satisfy Cauchy-Schwarz and add up to the total; S is unchanged by lattice images of any particle (reciprocal k), rigid translations and reordering. StaticStructureFactorDebye: k_values are the evenly spaced values from k_min to k_max; S_k is the mean over frames of the Debye sum with sinc (3D) or J_0 (2D); |S| <= N, S(0) = N; invariance under periodic images; sinc is the direction average of cos(k.r). Documented but refuted: all directions are averaged (one octant only), tilted boxes lose k vectors (wrong sign in the quadratic), the loop limit casts NaN to unsigned (undefined), the Faber-Ziman sum rule, one k value in Debye (infinite axis).", "quantifier": "every box, point set, query set, k range, set of sampled vectors, call history and thread schedule", "why_tests_cant": "Tests compare a few systems with a reference; the claims range over all point sets, boxes, histories and schedules, and the missing k vectors and undefined casts appear only for particular tilts and platforms.", "anchors": ["freud/diffraction/StaticStructureFactorDirect.cc:34-428", "freud/diffraction/StaticStructureFactorDebye.cc:27-128", "freud/diffraction/StaticStructureFactor.h:20-80", "freud/diffraction.py:73-520"]}
{"id": "C67", "title": "Wigner 3j table: complete, accurate, symmetric; W_l vanishes for odd l", "statement": "For every l <= 20, and for no other l, the built-in table has exactly one coefficient for each (m1, m2) with |m1|, |m2|, |m1+m2| <= l, in the order in which the Steinhardt w_l loop consumes it, and each is the Wigner 3j symbol (l l l; m1 m2 -m1-m2) of Racah's formula with relative error at most 2^-51. The coefficients have exactly the symmetries of the symbols (factor (-1)^l under exchange of columns and under negation of all m), which are proved for every l. Hence Steinhardt(l, wl=True).compute raises exactly when l > 20 and otherwise never reads outside the table; its values are those of coefficients within 2^-51 of the symbols; and for odd l they are 0 wherever they are numbers.", "quantifier": "every l, every (m1, m2), every q_lm, every call history, input and schedule", "why_tests_cant": "Tests compare w_l of a few crystals for a few even l to a few digits; one misplaced or mistyped coefficient among the 9,261 shows only in systems without the symmetries of those crystals.", "anchors": ["freud/order/Wigner3j.cc:17-57", "freud/order/Wigner3j.cc:59-5833", "freud/order/Steinhardt.cc:309-320", "freud/order/Steinhardt.cc:345-357"]}
{"id": "C68", "title": "Third-order Steinhardt invariants are rotation invariant, real and bounded", "statement": "For every l, two configurations with the same neighbours whose bond vectors have the same lengths and angles between them (a rotation, a reflection, a translation through the periodic box) have the same third-order invariants W_l, per particle and for the whole system, with and without averaging over the neighbours, when W_l is formed with the exact 3j symbols; and the sum of which the code keeps the real part is real. The normalised w_l lies within 1 + 10^-14 of zero. With the built-in table the values reported by two computations on such configurations, after any histories, are missing together or differ by at most 2^-49 (2^-49 (sum_m |q_lm|^2)^(3/2) when not normalised).", "quantifier": "every l (every l <= 20 for the reported values), every pair of congruent inputs, all flags, every call history and schedule", "why_tests_cant": "Tests rotate a few crystals by a few rotations and compare to a tolerance; that the sum over the coefficients is invariant under every rotation is an identity over all bond vectors that no sample of rotations settles.", "anchors": ["freud/order/Steinhardt.cc:309-357", "freud/order/Wigner3j.cc:17-57", "freud/order.py:375-600"]}
{"id": "C69", "title": "Rotational autocorrelation is the normalised character of the misorientation for l <= 8, and overflows beyond", "statement": "RotationalAutocorrelation(l) accepts exactly the even integers l >= 0 and compute raises exactly when the two lists of orientations differ in length. For even l <= 8 and unit quaternions the value of each particle is real and equals sin((l+1)t)/((l+1) sin t), 1 where sin t = 0, with 2t the angle of the rotation between its two orientations; the order is the mean (NaN without particles), whatever the schedule. Hence values lie in [-1, 1]; for l >= 2 a value is 1 exactly when the two orientations are the same rotation, and the order is 1 exactly when all are; swapping the frames, a common rotation of the system, a common change of body frame and replacing q by -q change nothing. Refuted for every even l >= 10: products of factorials wrap at 2^32, so that identical orientations give an order below 1 for l <= 32 and NaN for every l >= 34. Also refuted: l must be positive (0 is accepted).", "quantifier": "every l, every list of orientations, every schedule", "why_tests_cant": "Tests compare a few quaternions for l = 2 to 8; the values for other orientations, the symmetries and the loss of the upper bound for larger l are statements about all quaternions and all l.", "anchors": ["freud/order.py:816-886", "freud/order/RotationalAutocorrelation.h:54-66", "freud/order/RotationalAutocorrelation.cc:23-118"]}
{"id": "C70", "title": "Voronoi neighbours, polytopes and volumes are those of the periodic tessellation", "statement": "Given a periodic tessellation as voro++ reports it (every particle once, face normals towards the neighbour, face vertices equidistant from both), Voronoi.compute never fails and: nlist holds exactly one bond per face that has a direction (in 2D: and is not a top or bottom face), with weight the face area, vector from the particle to the image of the neighbour across the face, and distance its length; bonds are ordered by query point, point and weight; if the tessellation reports each face from both sides the list is symmetric under exchange of the two ends. Each polytope consists of the cell's vertices moved to the particle's own image (in 2D: of the upper plane, projected, counterclockwise around the particle) and every point of it is at least as close to its particle as to any image of any particle; volumes are the cell volumes in particle order. Earlier computations have no influence. Refuted: that bonds respect a non-periodic box (the container is always periodic), and that nlist is a snapshot (a later compute rewrites a list taken earlier, and filtering it filters the Voronoi object's own list).", "quantifier": "every box, every set of points, every tessellation meeting the stated contract of voro++, every schedule and history", "why_tests_cant": "Tests look at a few lattices and small random systems; the decoding of voro++'s packed face arrays, the 2D face filter and the offset of image cells must be right for every number of faces, vertices and images.", "anchors": ["freud/locality.py:1159-1271", "freud/locality/Voronoi.cc:29-222", "freud/locality/Voronoi.h"]}
{"id": "C71", "title": "Continuous coordination numbers and their bounds", "statement": "ContinuousCoordination.compute returns one row per particle with the columns: one per power in the given order, then log, then exp as requested. With N facets of relative pyramid volumes f_i the entries are N^(2-m)/sum f_i^m, -(1/ln N) sum ln f_i and sum exp(f_i - 1/N). If the pyramids fill the cell these numbers are at most N for m <= 0 or m >= 1, at least N for 0 <= m <= 1, for log and for exp; each equals N exactly when all facets have equal shares (except for m = 0 and 1, where it always does). They do not depend on the order of the neighbours, the schedule or the unit of length. Without neighbours the powers are NaN (m < 2) or infinite, log and exp are 0; with one neighbour log is infinite or NaN. A call without a system and without a Voronoi object raises ValueError, one with an uncomputed Voronoi object raises; a system given together with a Voronoi object is ignored. Refuted: the power formula printed in the documentation (a sum of reciprocals), which gives N^3 for equal facets.", "quantifier": "every system whose tessellation meets the contract of C70, every real power, all flags, every schedule", "why_tests_cant": "Tests check a few crystals where all facets are equal; the inequalities between the numbers and the facet count for all facet distributions and all real powers cannot be sampled.", "anchors": ["freud/order.py:888-1000", "freud/order/ContinuousCoordination.cc:18-88", "freud/order/ContinuousCoordination.h"]}
{"id": "C72", "title": "Interface particles are exactly those with a partner across the interface", "statement": "freud.interface.Interface.compute with query arguments returns, as point_ids and query_point_ids, the strictly increasing lists of exactly those points that have, and query points that are, a partner within [r_min, r_max) under the periodic boundary conditions; the counts are the lengths of these lists. The result does not depend on the search structure, the schedule or on earlier calls. Exchanging the two particle sets exchanges the two lists; for one set with itself the lists agree; a larger r_max or a smaller r_min never loses a particle. With a NeighborList the lists are the indices that occur in it. Refuted: neighbors=None, the documented default, raises AttributeError for every system; a NeighborList of another system is accepted and gives ids that name no particle.", "quantifier": "every box, every pair of particle sets, every r_max within the limit of the search, every search structure and schedule, every neighbour list", "why_tests_cant": "Tests compare ids for a few fixed configurations with one search structure; exactness for all particle sets and boxes, the exchange symmetry and independence of the schedule are universal statements.", "anchors": ["freud/interface.py:1-70", "freud/locality.py:808-836"]}
{"id": "C73", "title": "Local bond projections: maximum over equivalent vectors, symmetries and bounds", "statement": "LocalBondProjection.compute returns, for every bond and every reference vector p, the largest projection of the bond vector on any of the vectors p carried by the point of the bond under its symmetries, and that value over the length of the bond, for every division of the loop. Normed projections lie in [-|p|, |p|], with |p| reached exactly when an equivalent vector points along the bond; they are not finite exactly for bonds of length 0. Nothing changes when a particle's orientation is replaced by an equivalent one or by its negative, a reference vector by an equivalent one, when the list of symmetries is reordered, has repetitions or leaves out negatives (contrary to the documentation, which says both signs must be given), or when the whole system is turned. Scaling all lengths scales the projections and keeps the normed ones. With the default list the entries are plain projections. A neighbour list for other numbers of points raises. Refuted: that the number of orientations is checked (too few, or an empty list of symmetries, read outside the arrays), and that equiv_orientations with a single quaternion other than the identity has an effect.", "quantifier": "every valid neighbour list, all unit orientations, all reference vectors, every list of quaternions that is a rotation group up to sign, every cutting and order of the parallel loop", "why_tests_cant": "Tests use a few cubic examples; maximality over every group, invariance under every rotation and equivalent choice, and the memory-safety condition range over all inputs and schedules.", "anchors": ["freud/environment/LocalBondProjection.cc:22-103", "freud/environment.py:997-1105"]}
{"id": "C74", "title": "Result arrays as snapshots, and whose arrays are whose", "statement": "In every program built from the caller's array assignments and freud's constructors, compute calls, property reads and neighbour-list methods: freud never changes an array of the caller's; the arrays returned by classes that start from nothing in each compute, and segments and neighbor_counts, never change afterwards; an accumulating class (RDF, CorrelationFunction, PMFT, BondOrder, StaticStructureFactor) returns arrays holding the function of exactly the frames added since the last reset, evaluated on the values the inputs had when compute was called, and an array returned earlier keeps its value until a compute with reset=False on that object is followed by a property read, and for ever after a compute with reset=True, even one that raises; arrays of a NeighborList change only when that list is sorted, and never after it was filtered or overwritten by copy; segments and neighbor_counts read after any such program are those of the bonds the list has now; a copied list has equal values in its own arrays; a NeighborQuery and a query result use the values the caller's arrays had when they were made. Refuted: that accumulated arrays are snapshots (reading a property after compute(reset=False) overwrites those returned before), that sorting a list leaves arrays obtained from it alone, that the nlist property of a compute object is its own list (it is the list passed in, so filtering that list leaves results of the old bonds beside it), and that the points of a query object are protected (nq.points is writable, and a query after an assignment reads the new points with the old tree).", "quantifier": "every finite program, every object, array and call in it, whether calls succeed or raise, whatever the arrays contain", "why_tests_cant": "Aliasing shows only in particular orders of calls on shared objects; tests look at fresh results of one call and cannot range over all later programs.", "anchors": ["freud/util/export-ManagedArray.h:20-54", "freud/locality/BondHistogramCompute.h:36-77", "freud/density/RDF.cc:66-100", "freud/locality/NeighborList.cc:199-399", "freud/locality.py:182-221", "freud/locality.py:391-393", "freud/locality.py:600-775", "freud/locality.py:840-898", "freud/locality/NeighborComputeFunctional.cc:17-36"]}
{"id": "C75", "title": "Registration: best rotation, one-to-one matching, copies recognised", "statement": "The rotation computed from matched points (Kabsch) is a proper rotation and no proper rotation gives a smaller sum of squared distances. The matching of two sets of equally many points is one to one, gives each point in turn the nearest reference point still free, reports exactly the root mean square distance of the matched pairs, and reports 0 for sets equal up to order. The registration search always ends; the rotation it reports is proper, the points come back turned by it, and the number it reports is the root mean square distance of those points under the reported map; that number is below the tolerance 1e-6 or no larger than what aligning any ordered triple (pair, point for N = 2, 1) of different points with the drawn reference points gives. A turned and reordered copy of the reference points is always found (below the tolerance) if the drawn reference points determine the rest: when there are at most three of them, or when two drawn ones are not collinear with the centre; hence EnvironmentMotifMatch with registration reports such a neighbourhood as matching whenever the threshold is at least 1e-6*sqrt(N). EnvironmentRMSDMinimizer reports -1 for a neighbourhood of another size, which it leaves alone, and otherwise the root mean square distance, vector by vector, between the motif and the stored environment, which is a reordering of the neighbourhood turned by a proper rotation (the identity without registration); _minimize_RMSD rejects lists of different lengths. Refuted: that the matching minimises the distance (it is greedy), that two identical sets always register (if the drawn points are collinear with the centre the others may be turned away, and the result is worse than without registration), and that registration is defined for two neighbourhoods without neighbours.", "quantifier": "all point sets of any size, all singular value decompositions allowed by the mathematical contract, all sorting functions, all draws of the random number generator, all boxes, neighbour lists and motifs; exact real arithmetic", "why_tests_cant": "Optimality over all rotations, correctness of the enumeration of triples for every N, and independence of the random draw and of the unspecified SVD and sort cannot be sampled; the failing case needs an unlucky draw.", "anchors": ["freud/environment/Registration.h:114-137", "freud/environment/Registration.h:170-303", "freud/environment/Registration.h:337-406", "freud/environment/MatchEnv.cc:300-497", "freud/environment/MatchEnv.cc:645-805", "freud/environment.py:552-592"]}
{"id": "C76", "title": "DiffractionPattern: what a pixel shows, averaging, invariances", "statement": "compute accepts every cube (with points, a zoom, a unit view quaternion and one weight per point with a sum that is not zero) and raises for 2D boxes, for sides or tilts differing by more than the tolerances 1e-5 + 1e-5|x|, and for a wrong number of weights. The pixel (output_size//2, output_size//2) of a frame is N for every view, zoom, peak width and weights; with weights that are not negative every pixel lies between 0 and N. In the default view of a cube the pixel in row i and column j is the intensity at k = (k_values[j], k_values[i]) of the points snapped to the corners of the grid: squared modulus of the weighted sum, times the Gaussian of the peak width, interpolated linearly between the frequencies of the grid, over N, and zero beyond the grid; with zoom 1 and output_size = grid_size it is that intensity exactly. The order of points (with their weights) and depth along the view axis do not matter in any view; periodic images do not matter in views along the axes of the cube; moving all points by whole grid pixels does not matter in the default view; views along x and y show the default view of the permuted coordinates; scaling box and points together changes nothing. After any program of calls (returning or raising) and reads, diffraction is the mean of the frames of the calls that returned since the last reset, and N_points, k_values and k_vectors are those of the last call that returned. Refuted: that diffraction[i,j] belongs to k_vectors[i,j] (it is transposed; for rotated views the vectors are turned the wrong way), that periodic images do not matter in other views, that the centre is the brightest pixel with negative weights, that peak_width is a length, that a raising call changes nothing (reset=True erases first), that the array returned by k_values is a snapshot, and that box.cubic rejects small boxes nine times as long as wide.", "quantifier": "all grid and output sizes, boxes, views, zooms, peak widths, weights, point sets of any size and all programs; exact real arithmetic", "why_tests_cant": "The pixel formula quantifies over all point sets and all grid sizes, the averaging over all programs; the tests check symmetric patterns and k values, for which the transposition and the wrong wrap in rotated views do not show.", "anchors": ["freud/diffraction.py:521-834", "freud/box.py:543-556", "freud/box.py:642-648"]}
{"id": "C77", "title": "Sums over particles in machine arithmetic: which results have the same bits in every run", "statement": "Whatever the number of threads, the schedules, the thread-local arrays left from earlier calls and the order of the reduction, an entry of a Histogram<unsigned int> (RDF, PMFT, BondOrder, bond counts of CorrelationFunction) accumulated over any frames is the number of its samples mod 2^32, so it has the same bits in every run. An entry summed in floating point (float or double: Nematic, GaussianDensity, StaticStructureFactor, Steinhardt) is finite and within ((1+u)^m - 1) times the sum of the sizes of its m addends of the exact sum, at most 2 m u of it when m u <= 1/2, so two runs differ by at most twice that; addends that are whole multiples of one power of two, of total size at most 2^prec of it, are summed exactly in every run. Nematic.particle_tensor has the same bits in every run; Nematic.nematic_tensor is within 2 (N+2) u times the mean size of the particle tensors (plus 2^-150) of their mean. Every entry (a, b) of a particle's tensor is within 48 u of 3/2 u_a u_b - 1/2 delta_ab of the exact unit vector, and under every schedule every entry of nematic_tensor is within (4 N + 64) u of the exact mean (directions of length 2^-40 to 2^40, up to 2^22 particles). Refuted: that accumulated histograms hold the number of samples (65536 frames with 65536 samples each in a bin read 0), that nematic_tensor has the same bits with one thread and with two (three particles), and that single-precision sums of unit contributions reach more than 2^24.", "quantifier": "all numbers of iterations and frames, all addends, all schedules on any number of threads, all orders of reduction, all floating-point formats", "why_tests_cant": "Tests compare with tolerances on few threads; agreement of bits over all schedules, the size of the rounding error and the wrap-around after 2^32 samples cannot be reached by running examples.", "anchors": ["freud/order/Nematic.cc:47-95", "freud/util/Histogram.h:266-320", "freud/util/ThreadStorage.h:102-116", "freud/locality/BondHistogramCompute.h:135", "freud/diffraction/StaticStructureFactor.h:25", "freud/density/GaussianDensity.cc:70-169"]}
{"id": "C78", "title": "Ball queries of AABBQuery in single precision: the tree loses nothing, and the range is honoured up to a stated rounding error", "statement": "In binary32 arithmetic as compiled for SSE, for every non-empty list of points with finite coordinates, every query point, radius, image vectors and flags, a ball query of AABBQuery terminates with exactly one outcome: an exception for r_max <= 0, r_max <= r_min or a radius too large for the box (in an untilted box with finite sides and radii: exactly when twice the radius reaches the length of a periodic side), or exactly the bonds of the double loop over images and points with the same rounded test (pruning by rounded box distances never hides a point). So the distances and vectors found do not depend on the order of the points. In a box without tilt with coordinates and lengths up to 2^60, with D the exact distance to an image of the query point and S the distance of that image from the origin, and slack = 8u D + 4u S + 2^-70 (u = 2^-24): a pair with D + slack <= r_max and D - slack >= r_min (or r_min = 0) is found, every bond found has D - slack < r_max and D + slack > r_min, and its distance and vector are within slack of the exact ones. Without periodic directions bond (i, j) is found exactly if (j, i) is, with the same distance and the opposite vector. Refuted: the same symmetry through a periodic boundary (two points and a radius for which only one direction is found), and that other points are still found when one point has a NaN coordinate (its neighbours in the tree disappear).", "quantifier": "all finite point sets, query points, boxes, radii (including NaN and infinities), image checks and exclusion flags; the accuracy part for all untilted boxes and coordinates up to 2^60", "why_tests_cant": "Pruning errors and asymmetric bonds appear only for particular bit patterns at the edge of the range; the error bound and completeness quantify over all coordinates and tree shapes.", "anchors": ["freud/locality/AABB.h:60-413", "freud/locality/AABBTree.h:380-640", "freud/locality/AABBQuery.cc:32-149", "freud/locality/NeighborQuery.h:318-333", "freud/locality/NeighborQuery.h:496-565"]}
{"id": "C79", "title": "LinkCell in single precision: cells, completeness and accuracy, agreement with AABBQuery", "statement": "In binary32 arithmetic, with the conversion from float to unsigned int defined only where C++ defines it, for a box without tilt, points inside it (faces included), and a cell width that fits the box at least twice and at most 2^22 times along each direction: every point has a cell, and it is the cell of a position within 5 u n cells (n cells along the axis, u = 2^-24) of the exact one, the ends of the axis meeting; the constructor succeeds; every ball query of a point inside the box terminates with exactly one outcome; no point is reported twice. With all directions periodic, r_max at most half of each length, D the exact distance to an image and err = 8u D + 32u (Lx + Ly + Lz) + 2^-70: a pair with D + err <= r_max and D - err >= r_min (or r_min = 0) is found exactly once, with distance and vector within err of the exact ones; every bond found is such within err of [r_min, r_max) for some image. So LinkCell and AABBQuery find the same points whenever no image distance is within the two error bounds of the ends of the range. Refuted for tilted boxes: that points returned by Box.wrap have a cell (a wrapped point whose fractional coordinate rounds to a negative number makes the conversion undefined), and that LinkCell compiled for x86-64 finds all neighbours AABBQuery finds (that point lands in a cell far away and a query 0.375 away from it with r_max 0.875 does not find it).", "quantifier": "all untilted boxes with lengths in [2^-60, 2^60], all point sets inside them, all fitting cell widths, query points, radii and flags, and every meaning of the undefined conversions", "why_tests_cant": "Whether a point on or near a face or a cell border lands in the right cell depends on single bits; the claim ranges over all coordinates, box lengths and cell widths, and needs an error analysis to say which pairs must agree.", "anchors": ["freud/locality/LinkCell.cc:222-260", "freud/locality/LinkCell.cc:278-367", "freud/locality/LinkCell.cc:479-573", "freud/locality/LinkCell.h:60-213", "freud/locality/LinkCell.h:322-333", "freud/box/Box.h:216-260", "freud/box/Box.h:301-340"]}
{"id": "C80", "title": "Every attribute of every freud object reaches compiled code, except five", "statement": "For every freud class and every program of compute calls (returning or raising at any point), reads, assignments and method calls on an object of it: whichever branch the code behind an attribute takes, it asks only for names that the exported C++ class (with its exported base classes) has, for attributes that the python object has, and assigns only what can be assigned. So once a compute call has returned every attribute and method works; before that the only error is the guard's AttributeError, and the properties marked as results always raise it (MSD excepted, see C60). Exactly the listed properties (of Box, RDF and the query arguments) can be assigned; all others refuse. Refuted for five attributes, which raise AttributeError in every state although their documentation promises a value (hasattr is False): CorrelationFunction.bins and .bounds, BondOrder.bounds, LinkCell.cell_width (exported as GetCellWidth), and point_environments of the environment RMSD minimiser. Default neighbours of classes without any raise NotImplementedError.", "quantifier": "all 44 concrete classes, all their members, all sequences of operations with failures anywhere inside compute, all branches of the bodies", "why_tests_cant": "A test reads an attribute in one state along one branch; that no attribute in any state along any branch asks for a name missing on the other side of the language border is a statement about all of them together. The five broken attributes are public and documented and the test-suite does not notice.", "anchors": ["freud/util.py:11-84", "freud/density.py:146-148", "freud/locality.py:1044-1048", "freud/locality.py:1084-1086", "freud/locality.py:894-897", "freud/environment.py:645-660", "freud/environment.py:934-994", "freud/density/export-CorrelationFunction.cc:47-58", "freud/environment/export-BondOrder.cc:62-75", "freud/locality/export-NeighborQuery.cc:83-88", "freud/environment/export-MatchEnv.cc:141-146"]}
{"id": "C81", "title": "Box distances in single precision: nearest image up to a bound, and which numbers agree bit for bit", "statement": "In single precision, compute_distances and compute_all_distances put the distance from query point i to point j into entry i (or row i, column j), for every schedule and whatever the output memory held, and compute_distances raises if the numbers of rows differ. In any box without tilt, with any choice of periodic directions and points anywhere (coordinates up to 2^59), every distance is finite and within 8 u D + 16 u (Lx + Ly + Lz + |p - q|) + 2^-70 of the exact distance D to the nearest periodic image (u = 2^-24). The distance from a point to itself is exactly 0, also in tilted boxes. Exchanging the points changes it by at most twice the error, and not at all if no direction is periodic. The distance and vector of every bond of LinkCell are bit for bit what the box computes for its two points, in every box; those of AABBQuery agree up to a stated error. Refuted: the matrix is not symmetric and AABBQuery's bits differ (in a cube of length 3, points 0 and 1: 0.99999976, 1.0000001 when exchanged, 1 from AABBQuery); in a two-dimensional box z counts exactly if no direction is periodic.", "quantifier": "all untilted (for self distances and LinkCell bonds: all) boxes and periodicities, all points of ordinary size, all array lengths, all schedules, all bonds of all queries", "why_tests_cant": "Tests compare a few distances with a tolerance; they cannot show an error bound for all points and boxes, independence of the schedule, or that two code paths give identical bits for every bond.", "anchors": ["freud/box/Box.h:307-329", "freud/box/Box.h:416-462", "freud/box/export-Box.cc:81-105", "freud/box.py:448-503", "freud/locality/LinkCell.cc:496-573", "freud/locality/AABBQuery.cc:79-149"]}
{"id": "C82", "title": "k-nearest-neighbour queries of AABBQuery in single precision", "statement": "With the computed single-precision distances, a nearest query returns at most k bonds in ascending order, each of an eligible pair (not the point itself if these are excluded), with the distance and vector computed for one neighbouring cell, not below r_min and not above r_max. If k bonds are returned, every other point whose computed nearest distance is at least r_min is at least as far as all of them; if fewer are, every such point is missing only because the search reached r_max or the largest distance between box planes. Whenever the guess is a normal number and the scale is greater than 1 the query ends without an exception, and so does every query with default arguments in a periodic box without tilt. In boxes without tilt the distances are within 8 u D + 4 u |q'| + 2^-70 of the exact ones (q' the moved query point), a point left out is not closer than that allows, and a point is returned twice only at half the shortest side up to rounding. Refuted: that no point is returned twice by a default query (both copies at a computed distance below half the box); that every query with a positive guess ends (r_guess = 2^-149: the growth is lost in rounding); that the scale is checked to be greater than 1 (NaN passes and the query never ends).", "quantifier": "all boxes (accuracy and default arguments: untilted), all non-empty sets of finite points, all query points, k, r_min, r_max, visible guesses and scales greater than 1, every result of std::sort, every cube root function", "why_tests_cant": "Tests compare a few k-nearest results with brute force; they cannot show that no closer point is ever lost through rounding at the radius, that the growing search always ends, or find the rare mid-point configuration in which a point is counted twice.", "anchors": ["freud/locality/AABBQuery.cc:151-275", "freud/locality/AABBQuery.h:107-152", "freud/locality/NeighborQuery.h:130-142", "freud/locality/NeighborQuery.h:217-270"]}
{"id": "C83", "title": "Every supported form of a system gives the same query object", "statement": "Whatever a user hands to an analysis (a NeighborQuery, a (box, points) pair with the box as Box, attributes, dictionary, list of 2, 3 or 6 numbers or 3x3 matrix, an object with box and points, or a GSD, HOOMD, garnett or OVITO snapshot), two descriptions of the same box and points give the same query object: the class that was asked for, exactly that box and exactly those points in order; two-dimensional GSD and HOOMD snapshots may carry any Lz, xz, yz. A right-handed matrix of any orientation gives a positive box whose cell vectors have the lengths and angles of the columns. Refused are lists of other lengths, objects without Lx or Ly, zero lengths, no points, rows that are not of length 3, points off the plane of a 2D box and objects of other kinds. A number of dimensions asked of Box.from_box, or checked by an analysis, is the one the box gets, and a conflict with the object is refused. Refuted: that an MDAnalysis timestep (cell vectors in rows) gives the right box (exactly when it is not tilted); that a cell in another orientation keeps the lattice (the box is turned, the points are not); that left-handed matrices are refused (Lz becomes negative); that the argument dimensions of from_system has an effect.", "quantifier": "all boxes with positive lengths, all points, all forms listed, all classes, every further check of the compiled constructors, all matrices with non-zero determinant", "why_tests_cant": "Tests convert a handful of boxes from installed libraries; they cannot show that every triclinic box in every form gives the same object, and the tests for MDAnalysis and OVITO use orthorhombic cells in which rows and columns coincide.", "anchors": ["freud/locality.py:270-385", "freud/util.py:86-168", "freud/box.py:750-883", "freud/locality.py:839-921", "freud/locality/NeighborQuery.h:88-115"]}
{"id": "C84", "title": "CellQuery in single precision: each neighbour once, never lost but at the rim of a cell", "statement": "A ball query of CellQuery, computed in IEEE single precision with any float to int conversion, has exactly one outcome: it reports, in some order, each point whose stored position or ghost lies in the grid in a cell touching that of the query point and whose computed distance is in [r_min, r_max); it is refused exactly if r_max <= r_min or 2 r_max >= some box length. The bonds of a point depend only on that point and the query, points that are not finite are never reported, and no point is reported twice by the same query point. In an untilted box with wrapped points whose length is at most 2^20 radii, a reported bond is an exact image within r_max up to the stated rounding, and every point whose exact nearest image lies inside the radius by that margin is reported; for points clear of both ends of the range the result is that of AABBQuery. Refuted: that every pair within r_max is found (in a box of length 10 a pair closer than r_max is put two cells apart by rounding and lost from both ends, though AABBQuery finds it); that a two-dimensional query off the plane is flattened as AABBQuery does; that a non-periodic direction is respected; that an accepted radius is safe: cell numbers are computed in 32 bits, with at most 2^31 cells the outcome is the same, but in a box of length 1626 with r_max = 1 a single point makes the program write outside its arrays.", "quantifier": "all boxes, points (also infinite and NaN), query points, radii, conversions; accuracy for all untilted boxes with wrapped points, L <= 2^20 r_max, at most 2^31 points", "why_tests_cant": "Tests compare cell lists with brute force on random points; a pair lost because of rounding at the rim of a cell has probability near zero in random systems, and tests use periodic boxes and points in the plane.", "anchors": ["freud/locality/CellQuery.h:54-83", "freud/locality/CellQuery.h:144-299", "freud/locality/CellQuery.cc:17-177", "freud/locality/CellIterator.h:39-188", "freud/locality/NeighborQuery.h:195-228"]}
{"id": "C85", "title": "The RDF in single precision: exact counts, the same bits in every run, and a bound on every value", "statement": "RDF with its default neighbour query, computed in IEEE single precision with unsigned 32-bit counts on any number of threads, succeeds exactly if twice r_max is below every periodic side of every (untilted) box with query points. The bin counts, and with them rdf and n_r, have the same bits in every run, whatever the schedule and the order of the reduction. If no pair lies within the stated rounding of the edge of a bin, the bin counts are exactly the numbers of pairs (over all neighbouring images) per bin, modulo 2^32. Every value of rdf then differs from the definition (count / (N_points * density * frames) / shell volume, with the real pi) by at most 64 u * (r / bin width) relatively, and n_r[i] by at most 2 (i + 7) u, u = 2^-24. Refuted: that a pair at distance bin_edges[1] is counted in bin 1; that r_max = NaN is refused (every count is zero); that memory grows with the number of bins (the tables of shell volumes have bins^2 and bins^3 entries, 2^33 for 2048 bins). The constructor accepts finite radii exactly when bins > 0 and 0 <= r_min < r_max; NaN passes every check.", "quantifier": "all frames with points of ordinary size in untilted boxes, all numbers of frames, all axes with a bin width above 2^-125 (values: at most 65536 bins of ordinary size), all normalisation modes, all schedules and thread counts", "why_tests_cant": "Tests compare a few systems with tolerances of 1e-2 to 1e-6 on one machine's schedule; they cannot bound the error for every system, nor show that no schedule changes a bit.", "anchors": ["freud/density/RDF.cc:25-110", "freud/locality/BondHistogramCompute.h:39-128", "freud/util/Histogram.h:123-179", "freud/util/Histogram.h:266-351", "freud/util/ManagedArray.h:45-60", "freud/locality/AABBQuery.cc:79-149"]}
{"id": "C86", "title": "Ready-made unit cells are the crystals they are named after", "statement": "The infinite crystal of UnitCell.sc, bcc, fcc, hcp, square, hex and graphene is the structure of that name (whole coordinates; all coordinates whole or all halves; the checkerboard of halves; triangular layers at tetrahedron height over alternating holes; square lattice; triangular lattice; honeycomb). The points generate_system returns for any cell, with their periodic images, are that crystal magnified by scale and moved as a whole. So in every generated system each particle has exactly 6, 8, 12, 12, 4, 6, 3 neighbours (point and periodic image) nearer than the second shell, all at the same distance scale*(1, sqrt(3)/2, 1/sqrt 2, 1, 1, 1, 1/sqrt 3), the number density is that of the structure, and a ball query (AABBQuery, exclude_ii) with r_max between the first two shells returns exactly these. rectangular and oblique have the lattice vectors asked for (length, angle, centring), and raise exactly for aspect 0 or angles outside (0, 180). make_random_system gives points of the half-open box, in 2D in the plane, whatever the random numbers, and raises exactly for size 0.", "quantifier": "every named cell, replica counts, scale, particle and radius between the shells; every aspect and angle; every sample", "why_tests_cant": "Tests generate a few sizes and compare neighbour counts; the claim is about every replica count and every particle, through periodic images.", "anchors": ["freud/data.py:190-322 UnitCell presets", "freud/data.py:44-151 UnitCell.generate_system", "freud/data.py:350-376 make_random_system", "freud/box.py:920-978 from_box_lengths_and_angles", "freud/box.py:845-883 from_matrix"]}
{"id": "C87", "title": "LinkCell without a cell width: which systems it accepts and how full its cells are", "statement": "When no cell_width is given, LinkCell uses the edge of a cube holding the volume of ten points (cell_width^3 * max(floor(n/10), 1) = volume) and builds exactly when 8 * volume <= max(floor(n/10), 1) * h^3 for every height h of the box (in 2D: both in-plane heights, volume being the area). So in 3D every system of fewer than 80 points is refused with an exception whatever the box, a cube accepts exactly 80 points or more, acceptance does not depend on the unit of length, and an accepted cell list has at least 8 cells, at least ten points per cell on average and, without tilt, fewer than 35. In 2D none of this holds because the cubic root of an area is used: a square of side L is accepted exactly when L * max(floor(n/10), 1) >= 8, so a change of units makes any number of points refused, and the number of cells has no bound in the number of points (both refuted). Once accepted, ball queries below half the smallest height are those of brute force. Exact arithmetic: rounding can move the limit cases.", "quantifier": "every box with positive lengths (any tilt, 2D and 3D) and every list of points in it", "why_tests_cant": "Tests pass a cell width or use one hundred or more points in a cubic box; that the default fails for every small system, in any box, and depends on units in 2D, needs all boxes and all sizes.", "anchors": ["freud/locality/LinkCell.cc:222-260 LinkCell::LinkCell", "freud/locality/LinkCell.cc:278-314 computeDimensions", "freud/locality.py:872-897 LinkCell", "freud/box/Box.h:198-205 getVolume"]}
{"id": "C88", "title": "LinkCell with the 32-bit integers of the code", "statement": "In boxes without tilt, LinkCell computed with the unsigned and signed 32-bit integers of the code is built and answers every ball query exactly as with unbounded integers (so that C79 holds of it), with one result and no exception, whenever the volume of the box in cells plus the number of points is below 2^32 and r_max is below 2^29 cell widths; the same holds in every box whose cells and points together are fewer than 2^32, with fewer than 2^30 cells along each direction. A number of cells divisible by 2^32, and a number below 2^32 that reaches it together with the points, make the constructor raise. Beyond that limit the documented behaviour is refuted: with 2^32 + 7 cells the constructor succeeds, and, depending on where the only point lies, a query at the point delivers the same bond for ever or raises.", "quantifier": "every plain box, every non-empty list of points in it, every fitting cell width, every query point, r_max, r_min and exclude_ii; every conversion of floats to unsigned that is right on [0, 2^32)", "why_tests_cant": "A test would have to build a cell list with billions of cells; the limit, and that nothing overflows below it, concern all sizes at once.", "anchors": ["freud/locality/LinkCell.cc:222-276", "freud/locality/LinkCell.cc:316-367", "freud/locality/LinkCell.cc:479-573", "freud/locality/LinkCell.h:28-70", "freud/locality/LinkCell.h:209-213", "freud/util/ManagedArray.h:103-125"]}
{"id": "C89", "title": "Where the origin is, which unit and orientation is used and how the particles are numbered change no result", "statement": "Describe a system differently: move the origin, choose other periodic images, multiply all lengths (box, positions, r_max, r_min, r_guess, LocalDensity diameter) by a positive factor, invert the axes, renumber points and query points. In a fully periodic box with ball queries whose radius is below half of every plane distance, every backend applied to the new description finds exactly the old bonds, with the numbers, distances and vectors translated, each once. Hence, in exact arithmetic: the RDF and the cumulative counts of corresponding histories of frames are identical; LocalDensity gives the same neighbour numbers and densities divided by the factor squared (2D) or cubed (3D); Cluster finds the same number of clusters with the same members and sizes, and the identical numbering if the particles keep their numbers; Hexatic gives every particle the same k-atic order parameter, with the opposite sign when the axes are inverted and k is odd (if no two neighbours coincide). Moving all particles by a vector and wrapping them back into the box is such a description.", "quantifier": "every box, system, translation, factor of either sign, numbering, choice of images, backend on either side, parallel schedule and history", "why_tests_cant": "Quantifies over all systems and all ways of describing them, and relates whole pipelines (box, cell lists or tree, histogram, normalisation) on two different inputs.", "anchors": ["freud/box/Box.h", "freud/locality/AABBQuery.cc", "freud/locality/LinkCell.cc", "freud/locality/CellQuery.cc", "freud/density/RDF.cc", "freud/density/LocalDensity.cc", "freud/cluster/Cluster.cc", "freud/order/HexaticTranslational.cc"]}
{"id": "C90", "title": "A crystal and a bigger block of the same crystal give the same results", "statement": "Repeat a periodic system nx by ny by nz times into a bigger box (any order of the particles, any choice of images, any common displacement). In exact arithmetic, for ball queries with a radius below half of every plane distance of the small box: every backend finds for every copy exactly the bonds of the original, with the same distances, weights and vectors, each once. Hence: every normalised RDF value and cumulative count of corresponding histories of frames is identical with the exact normalisation, and differs only by the factor (1 - 1/n)/(1 - 1/(m n)) for n query points and m copies with finite_size; LocalDensity and Hexatic (2D) give every copy the values of its original; two particles in one cluster of the block are copies of particles in one cluster of the original, and the block has at least as many clusters. UnitCell.generate_system without noise with nx, ny, nz replicas is such a block of the system generated with one replica, for every cell (also the tilted ones that C64 shows to be displaced), so the neighbours and the RDF of a generated crystal do not depend on the number of replicas.", "quantifier": "every box, system, replica count, numbering, choice of images, backend on either side, parallel schedule, history, unit cell, basis and scale", "why_tests_cant": "Relates two runs of whole pipelines on systems of different size, for every system and every number of copies.", "anchors": ["freud/data.py", "freud/locality/PeriodicBuffer.cc", "freud/locality/AABBQuery.cc", "freud/locality/LinkCell.cc", "freud/locality/CellQuery.cc", "freud/density/RDF.cc", "freud/density/LocalDensity.cc", "freud/cluster/Cluster.cc", "freud/order/HexaticTranslational.cc"]}
{"id": "C91", "title": "LocalDensity in single precision: an error bound that holds at the rim", "statement": "LocalDensity with its default neighbour query, computed in IEEE single precision (the query radius r_max + diameter/2 and the constants with pi in double precision and rounded), gives every query point exactly one outcome: an exception if a periodic side of the (untilted) box is at most 2 c (1 - 3u), none if every one exceeds 2 c (1 + 3u), where c = r_max + diameter/2 and u = 2^-24. num_neighbors differs from the sum of the exact fractions of the diameter inside r_max, over all particles and neighbouring images, by at most K u (2 K + 40 + (25 r_max + 8 S)/diameter), where K is the number of pairs closer than r_max + diameter (at most 2^20) and S the largest distance of an image from the origin; particles at the rim, which rounding includes or excludes, need no exception. density is that number by the real area of the disc or volume of the ball up to 6u relatively more. If no particle is cut by the rim, num_neighbors is exactly their number, up to 2^24, where it stops growing. Finite arguments are refused exactly if r_max <= 0 or diameter < 0. Refuted: that num_neighbors and density are never negative (a single neighbour at the rim gives -6e-7); that every accepted diameter gives numbers (diameter 0 and a neighbour at the computed distance r_max give NaN); that NaN is refused.", "quantifier": "all ordinary systems and query points, all r_max and diameters between 2^-20 and 2^20 with r_max at most 2^16 diameters, 2D and 3D, all executions", "why_tests_cant": "Tests compare averages of random systems with tolerances of 10 percent or more; they cannot bound rounding for every system, nor find the one position in 2^24 at which a particle counts negatively.", "anchors": ["freud/density/LocalDensity.cc:25-86", "freud/density.py:510-514", "freud/locality/AABBQuery.cc:79-149"]}
{"id": "C92", "title": "Exchanging points and query points shows the same bonds from the other side", "statement": "A ball query of points by query points and the query with the two exchanged (any backend on either side, any box and radius the queries accept) return the same bonds, each with its two indices exchanged, its vector reversed and its distance and weight kept, each exactly once. For a system with itself and exclude_ii this means: every bond occurs in both directions, the bonds with query index below point index list every pair once and are exactly half of all, and a particle is found as often as it finds others. Hence, over any history of compute calls with and without reset and of reads, in any execution: the RDF is the same (mode 'exact'), n_r is scaled by the ratio of the numbers of particles, and mode 'finite_size' differs by the ratio of its two factors 1 - 1/N; the correlation function is the complex conjugate, and the same for real values; PMFTR12 is the same array with its two angular axes exchanged; num_neighbors and density of LocalDensity have the same sums over all query points. In single precision the bin counts of the RDF are the same if no pair lies within rounding of the edge of a bin. Refuted: that this holds for nearest neighbour queries (one bond from one side, two from the other), and in single precision at the edge of a bin (a pair across the boundary is counted from one side only).", "quantifier": "all boxes, points, query points, radii and backends a ball query accepts; all histories of calls; all executions; for the last part all ordinary single precision systems away from bin edges", "why_tests_cant": "A test compares both directions for a few random systems with tolerances; it cannot show it for every system, history and schedule, and random positions do not reach the one value in 2^24 at which rounding separates the two sides.", "anchors": ["freud/locality/AABBQuery.cc:79-149", "freud/locality/LinkCell.cc:496-573", "freud/density/RDF.cc:36-111", "freud/density/CorrelationFunction.cc:49-95", "freud/pmft/PMFTR12.cc:57-113", "freud/density/LocalDensity.cc:25-86"]}
{"id": "C93", "title": "Different analyses of the same bonds agree", "statement": "Analyses given the same neighbours describe the same system. In a plane, the mean of PMFTR12's positional correlation function over its two angles is the RDF of the same bonds with the same r_max and number of radial bins (r_min 0, the default normalisation), in every radial bin and over any history of accumulated frames. The mean of PMFTXYT's over its angle is that of PMFTXY. A bin of a CorrelationFunction averages exactly the bonds the same bin of an RDF counts; with all values one the correlation is one wherever the RDF counted a bond and zero elsewhere. The sum of LocalDensity.num_neighbors lies between the total counts of the RDF (its last n_r times the number of query points) cut off at r_max - diameter/2 and of one reaching beyond r_max + diameter/2. With the same grid and r_max, SphereVoxelization marks exactly the voxels where GaussianDensity is positive and leaves those where it is zero (untilted box, window wide enough for the radius and not meeting itself). The particles Interface lists for bonds between distinct particles are exactly those Cluster puts together with another particle.", "quantifier": "for all boxes, point sets, neighbour lists, orientations, bin numbers, radii, accumulated frames, schedules of the parallel loops and reads", "why_tests_cant": "The agreement holds bin by bin for every input and relies on each class's jacobian, normalisation, bin convention and window together; tests compare single analyses with single reference numbers for a few systems.", "anchors": ["freud/pmft/PMFTR12.cc", "freud/pmft/PMFTXYT.cc", "freud/pmft/PMFTXY.cc", "freud/density/RDF.cc", "freud/density/CorrelationFunction.cc", "freud/density/LocalDensity.cc", "freud/density/GaussianDensity.cc", "freud/density/SphereVoxelization.cc", "freud/cluster/Cluster.cc", "freud/interface.py"]}
{"id": "C94", "title": "Neighbours found with a large cutoff serve smaller ones", "statement": "The neighbour list of a ball query, reduced with filter_r to a smaller r_max and a larger r_min, is bond by bond, in the same order, the list the narrower query would have given, whichever classes (AABBQuery, LinkCell, raw points, ...) answer the two queries. Removing with filter the bonds of a point with itself gives the list of the query with exclude_ii=True. A query for the k nearest neighbours (AABBQuery) and a ball query agree: if a query point has at most k bonds in the ball, the bonds of its k nearest shorter than r_max are exactly those; if it has k or more, exactly k are found and all are among those. Bonds shorter than r_min or not shorter than r_max do not change an RDF, so a list found with a larger radius gives the RDF of the list found with r_max.", "quantifier": "for all fully periodic boxes, points and query points in the box, radii below half the box in every direction, r_min, exclude_ii, k, backends, orders and schedules of the list construction, histories of accumulated RDF frames", "why_tests_cant": "Equality of whole lists, for every pair of cutoffs and pair of search algorithms, depends on half-open intervals and tie-breaking in several classes at once; tests compare lists for a few random systems where no bond lies on a boundary.", "anchors": ["freud/locality/NeighborList.cc:251-307", "freud/locality/NeighborQuery.h:434-481", "freud/locality/AABBQuery.cc:79-280", "freud/locality/LinkCell.cc:496-573", "freud/density/RDF.cc:36-111"]}
{"id": "C95", "title": "Parts of a system and additional bonds: clusters merge, neighbours, densities and partial RDFs add up", "statement": "Adding bonds to a Cluster computation never separates particles: particles with equal cluster_idx still have equal cluster_idx, num_clusters does not grow, and if it stays the same the clusters are the same sets. One additional bond leaves num_clusters and every cluster_idx unchanged if its ends were already in one cluster, and lowers num_clusters by exactly one otherwise. A ball query on the points A followed by B returns for every query point the bonds to A together with the bonds to B renumbered by len(A), whichever of AABBQuery, LinkCell, CellQuery or raw points is used for which; query points do not influence each other. This holds with exclude_ii=False; with exclude_ii=True it is refuted, since exclude_ii compares indices. GaussianDensity of A and B together (with values or without) is voxel by voxel the sum of the two densities, and SphereVoxelization the larger of the two marks, in any box (also tilted), for any radius and every schedule. n_r of an RDF over A and B is the sum of the n_r of the two partial RDFs, and rdf is the mean of the partial RDFs weighted with the numbers of points, in both normalisation modes and over several accumulated frames.", "quantifier": "For all bond lists, thread schedules, boxes, point sets A and B, query points, backends, radii, values, histories of calls and bins.", "why_tests_cant": "The relation is between three calculations on arbitrary data under arbitrary schedules; a test compares a few fixed systems and cannot show that no bond set makes num_clusters grow or skip by two.", "anchors": ["freud/cluster/Cluster.cc", "freud/locality/NeighborQuery.h", "freud/density/GaussianDensity.cc", "freud/density/SphereVoxelization.cc", "freud/density/RDF.cc"]}
{"id": "C96", "title": "Coarser bins are sums of finer bins, shorter ranges are prefixes of longer ones", "statement": "Dividing every axis of a histogram into a multiple of its number of bins sends each sample to a fine bin inside its coarse bin (index divided by the factor, axis by axis) and drops the same samples; the content of every coarse bin (for integer counts, real or complex weights) is the sum of the contents of the fine bins it consists of, in any number of dimensions. For RDF over the same frames and mode, bins=k*B against bins=B: n_r of coarse bin i equals n_r of the last of its k fine bins, the shell volumes of the fine bins add up to that of the coarse bin, and rdf of the coarse bin times its shell volume is the sum of rdf times shell volume over the fine bins, i.e. the volume-weighted mean. RDF with a smaller r_max and bins of the same width gives exactly the first entries of rdf and n_r of the larger r_max. For CorrelationFunction with k*B bins the numbers of bonds in the fine bins add up to that of the coarse bin, and the coarse value is their mean weighted with these numbers. For PMFTs of every kind with a multiple of the bins along each axis, the pair correlation of a coarse bin times its measure is the sum over its fine bins; for PMFTXY, PMFTXYT and PMFTXYZ it is their plain mean. For BondOrder the value of a coarse bin times its solid angle is the sum of value times solid angle over its fine bins. In single precision the fine bin lies inside the coarse bin for every value farther than 6u*n fine bins (u = 2^-24, n the number of fine bins) from the edges of the fine bins; at an edge it is refuted: 0.5 on [0, 1) gets bin 3 of 6 but bin 14 of 30. With up to 2^20 coarse bins the fine bin of any value lies in its coarse bin or in one next to it.", "quantifier": "For all numbers of bins, factors, ranges, samples, histories of accumulated frames, normalisation modes, values and thread schedules of both calculations; in real arithmetic (and, where said, binary32), with the counts below 2^32.", "why_tests_cant": "It relates two calculations with different binning on arbitrary data; a test compares a few bin counts and cannot exclude that some sample at a bin edge moves to a bin that is not part of its coarse bin.", "anchors": ["freud/util/Histogram.h", "freud/density/RDF.cc", "freud/density/CorrelationFunction.cc", "freud/pmft/PMFT.h", "freud/environment/BondOrder.cc"]}
