# DESIGN

Formal model of glotzerlab/freud (pinned source in /repo) in Rocq (Coq 8.16.1).

## Method

* `properties.jsonl` lists the properties; `MANIFEST.json` says which theorem settles which property.
* The code in /repo is read as text and modelled function by function in Gallina.  Every definition of the
  model carries a comment `(* file:lines *)`.
* Files named `*Model.v` hold definitions that mirror the code, `*Spec.v` the independent specifications,
  `*Proofs.v` the lemmas, `*Props.v` the final theorems with `Print Assumptions`.
* Where the code does not have the property a user would rely on there is a theorem with suffix `_refuted`
  (a concrete counterexample run through the model) and a theorem giving the strongest condition under which
  the property does hold.  The statement in `properties.jsonl` says both, so that its status is `proved`.

## Modelling decisions

* Floating point numbers (`float`, `double`) are modelled by exact real numbers `R` of the Coq standard
  library, except in C65 where Flocq binary32 is used.  NaN/inf are represented by options where the code
  tests for them or where they are the observable result; division by zero is excluded by hypotheses.
* `unsigned int` / `size_t` are natural numbers; wrap-around is modelled where the code relies on it or can hit it.
* C++ exceptions and Python exceptions are values of a result type.
* `std::sort`, `tbb::parallel_sort`: any function meeting the contract (permutation, sorted).
* `tbb::parallel_for`: an arbitrary list of chunks whose concatenation is a permutation of the range,
  each chunk run by an arbitrary thread.
* The compilers, TBB, NumPy, nanobind, Eigen and voro++ are not modelled.

## Trusted base

* The Coq 8.16.1 kernel (including its `vm_compute` reduction) and the definitions of the statements, that is the
  `*Model.v` and `*Spec.v` files.  No axiom is declared in this development; no kernel check is switched off.
* Axioms of the Coq standard library used through `Reals`, `Classical` and `FunctionalExtensionality`:
  `ClassicalDedekindReals.sig_forall_dec`, `ClassicalDedekindReals.sig_not_dec`, `Classical_Prop.classic`,
  `FunctionalExtensionality.functional_extensionality_dep`.  The section "Axioms per theorem" gives the list that
  `Print Assumptions` prints for each theorem.
* The reading of the source as text: that the Gallina definitions say what the cited lines say.
* Real numbers stand for `float` and `double` (except C65, C77, C78, C79, C81, C82, C84, C85, C88, C91 and single theorems of C92 and C96).  Rounding, overflow and cancellation are therefore
  outside every other theorem; where the code tests for NaN or produces one, `None` stands for it.
* C65, C77, C78, C79, C81, C82, C84, C85, C88, C91 and single theorems of C92 and C96 trust Flocq's binary32 and assume plain SSE arithmetic: rounding to nearest even after every operation, no
  fused multiply-add, no excess precision, one NaN, `std::fmod` exact, and `_mm_cvttss_si32` for the conversion to int.
* oneTBB: `parallel_for` runs every index once, on any thread, in any interleaving; `enumerable_thread_specific`
  gives each thread its own instance; `global_control` as described in `ThreadsModel.v`.  Concurrent writes of equal
  values to one voxel (SphereVoxelization) are taken to have the effect of one of them.
* The C++ atomics of `dset.h` are sequentially consistent (C41).
* Parameters with a stated contract, trusted to be met by the library: Eigen's self-adjoint solver (C42, C56),
  spherical harmonics of the `fsph` submodule (C47, C58, C62; its source is not in the pinned tree), `std::sort` and
  `tbb::parallel_sort`, FFT libraries (C55), the Bessel function and the cast of NaN to unsigned (C66), random numbers
  (C61, C64, C66: arbitrary), the singular value decomposition, std::sort and the drawn indices of `Registration.h` (C75: `is_svd`, `sorts`, `drawn`; C44: any registration), Voronoi cells of voro++ (C70, C71: `voro_ok`).
* CPython's `with` statement and exceptions, NumPy and nanobind conversions (C09, C26, C60, C63).

## What is modelled

| Source | Model | Left out |
|---|---|---|
| box/Box.h, box.py | BoxModel, BoxPyModel | plotting, warnings, cross-library converters, compute_all_distances over arrays as C loops |
| locality/AABB.h, AABBTree.h, AABBQuery | AABBModel, QueryModel, KnnModel | tree update, SSE code path |
| locality/LinkCell (automatic cell width: C87) | LinkCellModel, KnnModel | 32-bit overflow of cell numbers (see Flc32Model) |
| locality/CellQuery, CellIterator.h | CellQueryModel | 32-bit overflow of cell numbers (see Fcq32Model) |
| locality/NeighborList, NeighborBond.h, NeighborComputeFunctional | NListModel, NList32Model (all pairs) | more than 2^32 bonds (except all_pairs) |
| locality/NeighborQuery.h, RawPoints.h, locality.py queries | QueryModel | zero query points |
| locality/Filter* | FilterModel | - |
| locality/Voronoi | VoronoiModel | voro++ itself (contract `voro_ok`), choice of blocks |
| locality/PeriodicBuffer | PBufferModel | 2D cast of a division by zero |
| util/ManagedArray.h | MArrayModel | size_t wrap-around |
| util/Histogram.h, ThreadStorage.h, BondHistogramCompute.h | HistModel, ParModel, F32Model | other axis types |
| util/VectorMath.h (quaternions, matrices), BiMap.h (what MatchEnv uses) | QuatModel, MatchEnvModel | rest of VectorMath |
| extern/dset | DsetModel, Dset64Model | try_lock, unlock, unite_index_locked, unite_unlock (not called by freud); 64-bit entries are pairs in DsetModel, C41_packed shows the packing loses nothing below 2^32 elements |
| cluster | ClusterModel, ClusterPropModel | - |
| density | RdfModel, CorrModel, LocalDensModel, GridModel | 2D cast of 0/0 in GaussianDensity |
| diffraction (StaticStructureFactor*) | SfModel | calls that raise, pruning probabilities |
| storage of results (util/export-ManagedArray.h, reset/reduce, NeighborList methods, NeighborQuery) | AliasModel | numpy-side arrays of MSD, Interface |
| freud/diffraction.py:521-834 DiffractionPattern, box.py cubic | DiffModel | to_image, plot; numpy/scipy functions written out (histogram2d, fft2, fftshift, fourier_gaussian, affine_transform order 1); calls whose numpy results would be not-a-numbers count as raising |
| Nematic.cc:47-95 in binary32, Histogram.h:266-320, ThreadStorage.h:102-116 (sums of counts and floats over schedules) | ReproModel | the eigenvalue solver after the tensor; addends other than Nematic's are any function of the iteration; no fused operations or excess precision |
| AABB.h, AABBTree.h build and skip pointers, AABBQuery.cc ball iterator, NeighborQuery.h:496-565 in binary32 | FaabbModel | the scalar (non-SSE) code path; ghost lane is zero; double product r_max * 2.0 as binary32; no fused operations or excess precision |
| LinkCell.cc:222-367, 479-573, LinkCell.h:60-213, 322-333 in binary32 | FcellModel | automatic cell width; nearest neighbour iterator; 32-bit overflow of cell numbers (see Flc32Model); float to unsigned conversion is a parameter outside its defined range |
| the same lines with unsigned int and int | Flc32Model | automatic cell width; nearest neighbour iterator; a shell of 2^30 or more counts as overflowing at once; 2^32 and more points |
| Box.h:416-462 (distances), export-Box.cc:81-94, box.py:448-503 in binary32 | FdistModel | conversion of the inputs to arrays (_convert_array); std::sqrt is correctly rounded; i * n_points + j does not overflow size_t |
| AABBQuery.cc:151-275, AABBQuery.h:107-152 (nearest iterator), NeighborQuery.h:130-142, 217-270 in binary32 | FnearModel | std::map and std::unordered_set as lists without duplicates; std::sort any ordered permutation; cbrtf any function; unsigned sizes unbounded; num_neighbors equal to the default sentinel |
| CellQuery.h:54-83, 144-299, CellQuery.cc:17-177, CellIterator.h:39-188, NeighborQuery.h:195-228 in binary32 | FcqModel, Fcq32Model | float to int conversion is a parameter outside its defined range; nearest neighbour mode (not supported by the code); cell numbers are unbounded in FcqModel and have the types of the code in Fcq32Model; the number of stored positions is below 2^31 |
| density/RDF.cc, BondHistogramCompute.h, Histogram.h in binary32 (binary64 for M_PI) | FrdfModel | neighbour lists given by the user, query arguments other than the default; all additions of one iteration go to one thread-local histogram; tables of shell volumes as functions |
| density/LocalDensity.cc, density.py:510-514 in binary32 (binary64 for M_PI and the Python sum) | FldModel | neighbour lists given by the user, query arguments other than the default; the entries of one query point instead of the arrays (C51 has the arrays and the schedules) |
| locality.py:270-385, 839-921, util.py:86-168, box.py:750-883, NeighborQuery.h:88-115 (conversion of user data) | SystemModel | objects of other libraries are the attributes the code reads; float32 rounding and non-numeric entries; the checks of the compiled constructors other than the plane of 2D points are any function |
| environment (AngularSeparation, BondOrder, LocalDescriptors, MatchEnv, LocalBondProjection) | AngSepModel, SphModel, MatchEnvModel, RegModel, LbpModel | Eigen's SVD, the loop redrawing indices in Registration.h |
| order (Hexatic, Nematic, Cubatic, Steinhardt, SolidLiquid, RotationalAutocorrelation, Wigner3j, ContinuousCoordination) | HexModel, NemModel, CubaticModel, SteinModel, SolidModel, RotAutoModel, WignerModel, CoordModel | rounding of the decimal table literals |
| pmft | PmftModel | quaternion to angle conversion (rowan) |
| msd.py | MsdModel | FFT libraries themselves |
| interface.py | IfaceModel | - |
| data.py | UnitCellModel, PresetModel | from_cif, a2/a3 accessors; random numbers are any numbers of [0, 1) |
| parallel.py, parallel/tbb_config.cc, util.py | ThreadsModel, ComputeModel | - |
| all classes of freud/*.py against freud/*/export-*.cc, box/module-box.cc | BindModel | arguments, values, class methods, accesses to other objects; tables written down from the source by hand-checked text extraction |

Not modelled: voro++ itself, `plot.py`, the nanobind export code (except the exported names, BindModel, and array conversions mentioned in the models).

## Per property plan

* **C01** Fractional and absolute coordinates are inverse maps — Box.h modelled over R (`BoxModel.v`); two inverse lemmas by field/ring.
* **C02** wrap moves a point by a lattice vector into the primary cell — `wrap` over R with fmod/trunc; spec `lattice_equiv` (exists integers) and fractional range.
* **C03** wrap is a canonical representative of the periodic class — Uniqueness from C02 plus injectivity of fractional coordinates.
* **C04** unwrap undoes wrap using the image flags — Interior theorem + refutation on the lower face (`_partial`, `_refuted`).
* **C05** contains agrees with the primary cell — Exact characterisation (open cell) + refutation of the documented closed cell.
* **C06** Wrapped separation is the minimum image below half the smallest plane distance — From C07: any two distinct images differ by at least one plane distance.
* **C07** Nearest plane distances are the true perpendicular heights of the cell — Cauchy-Schwarz on the gradient of the fractional coordinate; tightness by the gradient vector.
* **C08** Periodic distance is invariant under lattice translations and symmetric — Translation invariance from C03; symmetry under side condition; tilted refutation.
* **C09** Box conversions round trip — Python constructors modelled as total functions into result type.
* **C10** Switching dimensionality keeps a consistent box — Setter state machine; refutation for `dimensions = 2`; positive invariant for the other setters.
* **C11** Center of mass is equivariant — Complex phases as pairs of reals, arg via atan/acos; equivariance through periodicity of cos/sin.
* **C12** Multidimensional result arrays index bijectively in row-major order — Shapes as lists; row-major bijection by induction over rank.
* **C13** Histogram bins partition the range — RegularAxis over R.
* **C14** Histogramming conserves counts — Fold over samples; function-valued histogram spec.
* **C15** Parallel accumulation is schedule independent — Schedules as lists of (thread, chunk) covering the range; commutative-monoid sum argument.
* **C16** Thread-local arrays reduce to the total — Refutation + partial for a zeroed result.
* **C17** Accumulating over frames equals one batch; reset forgets — State machine with lazy flag, simulation against list-of-frames spec.
* **C18** NeighborList construction accepts exactly the valid inputs — Exceptions as values; both directions.
* **C19** Segments and neighbour counts describe the bond list — Loop of updateSegmentCounts and bisection modelled literally.
* **C20** filter keeps exactly the selected bonds — filter loops modelled literally; spec by List.filter/combine.
* **C21** all_pairs lists every pair exactly once — Linear index arithmetic modelled literally as writes into an array. The same in 32-bit arithmetic (NList32Model): exact or an exception (NList32Props).
* **C22** Bond vectors point from query point to point — Refutations for all_pairs/RAD, positive for the tree query (C29).
* **C23** Sorting a neighbour list — Sort = any function meeting the sort contract.
* **C24** Per-query-point iteration visits every bond exactly once — Iterators modelled on the list; chunks as in C15.
* **C25** A query result can be reused with the system it came from — Refutation + positive for toNeighborList.
* **C26** Query arguments are validated completely — Optional-field record; exhaustive case proof.
* **C27** Image vectors enumerate exactly the needed periodic copies — Image loop modelled literally.
* **C28** AABB tree contains every point exactly once and its nodes enclose their children — Recursive build over arrays, flattening of nodes and skip counts; traversal by fuel-free measure.
* **C29** Ball query returns exactly the neighbours in range (AABB) — C27 + C28 + C07.
* **C30** Ball query returns exactly the neighbours in range (LinkCell) — Cells as integer triples, shell enumeration C33.
* **C31** Ball query returns exactly the neighbours in range (CellQuery) — Cells with ghost images.
* **C32** All neighbour-finding backends agree — Corollary of C29-C31.
* **C33** Cell shells enumerate each cell once, outwards — IteratorCellShell state machine, closed-form enumeration.
* **C34** k-nearest-neighbour query returns the k nearest — Refutations + conditional correctness.
* **C35** Non-periodic boxes are rejected by ball queries — Refutation + positive for the checked path.
* **C36** Periodic buffer contains every image in the buffer zone once — Loop modelled literally.
* **C37** SANN picks the smallest self-consistent neighbour shell — while loop modelled literally; least m spec.
* **C38** RAD keeps exactly the unblocked neighbours — double loop modelled literally.
* **C39** Clusters are the connected components — C41 + label construction. Existence of a result from termination (C41) and an insertion sort by the comparator.
* **C40** Cluster numbering is canonical — Label construction with arbitrary representatives.
* **C41** Concurrent union-find is linearizable to a partition — Small-step machine with atomic load/CAS steps, arbitrary thread pool; inductive invariant. A ghost record of first links bounds every rank by the binary logarithm of the number of elements, hence the 64-bit entries never overflow (Dset64Model). Termination: a potential over ranks and parents bounds the number of changes, and between changes every thread ends (inductive predicate bt).
* **C42** Cluster properties use each particle's own data — Refutation + conditional.
* **C43** Environment union-find partitions particles — EnvDisjointSet partition by invariant.
* **C44** Environment matching is a sound one-to-one correspondence — Greedy matching soundness + refutation of completeness.
* **C45** Recomputing an environment object forgets the previous system — State machine; refutation.
* **C46** Angular separations use the orientations of the bond's own ends — Index model; refutation + positive when query points = points.
* **C47** Every neighbour bond gets its local descriptors — Index model; refutation + positive.
* **C48** Bond order diagram counts every bond and its bins tile the sphere — Areas by telescoping cosine sums; pole refutation.
* **C49** RDF cumulative count and normalisation — Folds over bins.
* **C50** Correlation function is the bin-wise mean — Pair of histograms.
* **C51** Local density counts each neighbour between 0 and 1 — Real inequality.
* **C52** Sphere voxelization marks exactly the covered voxels — Window loop modelled literally.
* **C53** Gaussian density treats every particle's neighbourhood once — Window loop modelled literally; state machine for dimensionality.
* **C54** PMFT normalisation and equivalence-count state — State machine + algebra.
* **C55** Windowed MSD equals its definition — Recurrence by induction; autocorrelation through explicit DFT with roots of unity.
* **C56** Nematic tensor is symmetric and traceless with bounded order — List sums over R.
* **C57** Hexatic order parameter has modulus at most one — Triangle inequality over lists.
* **C58** Solid-liquid filtering and clustering — Composition of C20 and C39 models.
* **C59** Quaternion rotations are isometries consistent with rotation matrices — nsatz/ring.
* **C60** Results are unavailable before compute — State machine.
* **C61** Cubatic order — Tensors as functions of four indices; arbitrary random streams per chunk; two cuttings with different results.
* **C62** Steinhardt averaging and bounds — List sums.
* **C63** Thread-count context manager restores the previous setting — State machine; refutation.
* **C64** Replicated unit cells tile the big box — Corollary of C36 model.
* **C65** Binning, modulus and wrapping in single precision — Flocq binary32 with a rounding after every operation; relative-error lemmas; counterexamples by computation.
* **C66** Structure factor estimators — Sums of complex exponentials.
* **C67** Wigner 3j table — literals as exact decimals against Racah's formula; integer checks by `vm_compute` on the entries with m1 <= m2 <= 0, the rest through proved symmetries.
* **C68** Rotation invariance of the third-order invariants — the sum is a kernel of triples of bond directions; its derivative under a rotation about x vanishes by the recurrences of the 3j sums, under one about z term by term; two rotations bring a pair of directions to a standard place.
* **C69** Rotational autocorrelation — the double sum is the trace of a symmetric power of an SU(2) matrix; two-term recurrence of Chebyshev polynomials; the unsigned factorials modulo 2^32.
* **C70** Voronoi — the specification encodes faces into voro++'s packed arrays, the model decodes them; contract of voro++ as hypothesis; heap of shared lists.
* **C71** Continuous coordination — tangent inequalities for x^m, ln and exp; extended reals for the special values; composed with C70.
* **C72** Interface — `np.unique` as sorted distinct values over the bonds of C32; ids are exactly the particles with a partner; the default argument refuted.
* **C73** Local bond projections — the loop of C46 with rows; maximum over a rotation group given up to sign; invariances; the unchecked sizes refuted.
* **C74** Result arrays as snapshots — a heap of arrays, objects holding addresses, an ownership invariant over every program; the in-place reduce and sort, the shared list and the writable points refuted.
* **C75** Registration — Kabsch optimality by the trace bound under an SVD contract, the greedy matching, the enumeration of all ordered triples, copies found when the drawn points determine the rest; RMSD minimiser; greedy matching, collinear draws, empty neighbourhoods refuted.
* **C76** DiffractionPattern — the transform of the histogram as a sum over snapped points, shift and interpolation as tents, the inverse affine map, integer shear of views along axes, invariant over programs; transposition, rotated views, negative weights, peak width, erasing by raising calls, shared k_values, cubic refuted.
* **C77** sums in machine arithmetic — any schedule adds the addends in some order and bracketing (inductive relation), counts mod 2^32, error bound by induction over bracketings for every IEEE format, exact sums on a grid; wrap-around, schedule-dependent nematic tensor bits and stagnating float counters refuted. Accuracy of the entries against the exact tensor: ReproSpec2, ReproProofs2, ReproProps2.
* **C78** ball queries in single precision — rounding is monotone, so the rounded box distance never exceeds the rounded point distance and pruning loses nothing; rounding-error analysis of the distance test for untilted boxes; symmetry in open boxes; asymmetric bond across a boundary and points hidden by a NaN refuted.
* **C79** LinkCell in single precision — error of the computed cell position, offset of the cells of a pair from its exact displacement, the shells searched cover that offset, then the double loop over cells; error bound for the wrapped displacement; agreement with C78 away from the ends of the range; wrapped points without a cell and lost neighbours in tilted boxes refuted.
* **C80** Attributes reaching compiled code — tables of all classes and bindings (BindModel), an inductive relation of every way an access can fail (BindSpec), a complete list of failures with monotonicity in the state for any tables (BindProofs), evaluated on freud's tables in the two extreme states; five attributes refuted.
* **C81** Distances of Box in single precision — assignments of the parallel loops in any order over arbitrary old memory (FdistModel), the exact nearest image as a minimum over all allowed shifts (FdistSpec), one direction at a time: the wrapped coordinate is as long as the nearest image up to rounding (FdistProofs), squares ignore signs, wrapping zero gives zero (FdistProofs2), agreement with the cell list and the tree (FdistProps).
* **C82** k-nearest queries of AABBQuery in single precision — the search loop as an inductive relation without fuel (a query that does not end has no outcome), any result of std::sort, any cube root (FnearModel); what is found at one radius and what a map of minima keeps (FnearProofs), growth of the radius, ending, sorted prefixes (FnearProofs2); accuracy and repeated points in untilted boxes, validation of the arguments, refutations (FnearProps).
* **C83** systems in every supported form — Python objects as an inductive type of what the code reads, box-like objects, conversion of arrays, from_system for every library (SystemModel); which objects describe a box with points (SystemSpec); agreement of all forms, matrices by Gram determinants, MDAnalysis rows, rotated and left-handed cells, refusals (SystemProps).
* **C84** CellQuery in single precision — grid, ghosts, sorted buffer, cell starts and the iterator (FcqModel); a search over all points and stored positions without cells or sorting (FcqSpec); buffer and starts (FcqProofs), cells of positions in computed numbers (FcqProofs2), the three rows of the iterator visit each touching cell once (FcqProofs3), cells of near positions differ by at most one, ghosts are where they are needed (FcqProofs4), at most one stored position in range (FcqProofs5); accuracy, agreement with AABBQuery, a lost pair, flat and non-periodic boxes (FcqProps); the same with the integer types of the code, overflow (Fcq32Model, FcqProps2).
* **C85** the RDF end to end in binary32 (FrdfModel): ball queries of FaabbModel, histogram of F32Model, reduction of ReproModel; counts are exact for pairs clear of the bin edges, rdf and n_r within a stated relative error of the definition; bits independent of the schedule; edges, NaN radius and memory refuted.
* **C86** Ready-made unit cells are the crystals they are named after — `PresetModel.v`, spec point sets in `PresetSpec.v`; a bijection between (point, image) of the system and (basis point, cell) of the crystal turns neighbour counts into counts of whole-number solutions of a quadratic form (`PresetProofs*`); ball query through C29.
* **C87** LinkCell without a cell width — `default_width` of `LinkCellModel.v`; acceptance turned into cubes of heights (`roomy`, `LcAutoSpec.v`), the product of heights is at most the volume; refusal of fewer than 80 points in 3D, dependence on units and unbounded cells in 2D as refutations; queries through C30.
* **C88** LinkCell with 32-bit integers — `Flc32Model.v` repeats the constructor and the ball iterator of `FcellModel.v` with `u32`, `i32` and checked accesses; the two run in step while cells and points are fewer than 2^32 (`C33_order` bounds the shells); the limit expressed by the volume of the box; an endless query and a raising one beyond it, by computing 2^32 + 7 cells.
* **C89** Descriptions of the same system — `SymmSpec.v` says when two descriptions (origin, unit, orientation, images, numbering) are of the same system; separations correspond up to the factor, so the brute-force bonds do, and with `C32_ball` the results of every backend; RDF, LocalDensity, Cluster and Hexatic follow from their specifications (C49, C51, C39/C40, C57). Exact arithmetic only: the rounded code depends on the origin within the error bounds of C78, C79 and C85.
* **C90** Blocks of copies — `SuperSpec.v` says when a system is a block of copies of another one; every separation of the original lifts to exactly one separation of the block (`range_super`), so the bonds of every copy project to those of its original without repetition; RDF, LocalDensity, Cluster and Hexatic follow from C49, C51, C39/C40 and C57, and the generated crystals from C64. Exact arithmetic only. For Cluster only the projection is claimed: how many clusters the block has depends on which clusters reach round the box.
* **C91** LocalDensity in single precision — `FldModel.v` (one bond, the running float sum, the rounded query radius, ball and disc); the error of one bond (`fraction_val`), of the sum over any order (`sum_val`), of one pair whether or not rounding makes it a bond (`pair_one`: the fraction is continuous, so no clearance from the rim is needed), summed over all pairs; negative, NaN and saturated results by computing single particles. Exact reference: `part`, `ball` (`FldSpec.v`).
* **C92** Points and query points exchanged — no new model: the ball query theorems (C32) from both sides give the same set of bonds, turned round (`turned`, `exchanged` in `ExchSpec.v`); the sums of C49, C50, C51 and C54 do not change, or change as stated, under it. Single precision: `exact_count` of C85 from both sides. Refutations: C34 with counted bonds; the pair of C78 found from one side only, now as counts of the RDF.
* **C93** Different analyses agree — no new model: `JoinSpec.v` says when calls of two classes look at the same bonds; the value theorems of C49, C50, C51, C52, C53, C54, C39 and C72 are summed over the bins the two classes do not share (consecutive bins tile their range, so each bond is in one of them).
* **C94** Cutoffs — no new model: `CutSpec.v` says when one query asks for part of another; the bonds come from C32 and C34, the order from the uniqueness of sorting (a filtered sorted list is sorted), the counting argument for k nearest from both sets being duplicate-free.
* **C95** Parts and additional bonds — no new model: `MoreSpec.v` says how parts are numbered in the whole; clusters through the canonical numbering (C40) and injections between sets of clusters, neighbours through C32, grids directly from the sums and marks of C52/C53 (so without conditions on the box), RDFs from the counts of C49; exclude_ii refuted.
* **C96** Coarser bins — no new model: `CoarseSpec.v` defines refined axes and coarse indices; bins through the uniqueness of cells (C13), RDF, correlation, PMFTs and bond order diagrams through the counts and means of C49/C50/C54/C48, chained over the k fine bins; in binary32 through C65_bin_accurate, refuted at an edge.

## Axioms per theorem

What `Print Assumptions` lists for each theorem of the manifest (see "Trusted base" for the full names).

* **no axioms (closed under the global context)**: C12_index_row_major, C12_index_order, C12_multi_index_inverse, C12_multi_index_overflow_refuted, C12_rejects, C12_out_of_range_refuted, C12_access, C15_each_index_once, C16_reduce_into, C16_reduce_into_zeroed, C17_frames_since, C30_index_roundtrip_refuted, C33_cube, C33_order, C36_argument, C40_unique, C48_reject, C54_equivalents, C56_reject, C60_guard, C60_plot, C60_hasattr, C60_results, C60_failed_call_keeps, C60_every_class, C60_failed_call_erases_refuted, C60_msd_refuted, C60_msd_rule, C60_unbound_refuted, C60_diffraction_grid, C62_constructor, C63_set, C63_set_rejected, C63_rejected_value_reported_refuted, C63_with_restores, C63_with_rejected_refuted, C63_with_construction, C63_prebuilt_manager_refuted, C63_agreement, C63_nested, C69_accept, C69_positive_refuted, C74_inputs, C74_results, C74_segments, C74_accumulated, C74_snapshots, C74_accumulate_refuted, C74_nlist, C74_sort_refuted, C74_copy, C74_points, C74_given_list_refuted, C74_points_view_refuted, C74_current, C77_counts, C77_count_bits, C77_wrap_refuted, C80_reads, C80_served, C80_withheld, C80_writes, C80_unbound_refuted, C85_memory_refuted, C91_nan_refuted.
* **functional_extensionality_dep**: C39_components, C39_result, C39_answer, C40_numbering, C40_keys, C40_schedule_independent, C41_always, C41_finished, C41_queries, C41_ranks, C41_cluster_ranks, C41_packed, C41_terminates, C41_cluster_terminates, C41_session, C95_more_bonds, C95_one_bond.
* **sig_forall_dec**: C09_matrix_columns, C20_filter, C24_loop_bonds, C43_partition, C54_shift_refuted, C92_frames.
* **functional_extensionality_dep, sig_forall_dec**: C01_fractional_absolute, C01_absolute_fractional, C01_absolute_affine, C01_lattice_vectors, C01_constructed_boxes, C02_wrap_lattice_shift, C02_wrap_in_cell, C02_wrap_aperiodic_axes, C02_wrap_aperiodic_identity, C03_wrap_canonical, C03_wrap_idempotent, C03_wrap_fixes_cell, C04_unwrap_wrap_iff, C04_unwrap_shift, C04_unwrap_wrap_face_refuted, C05_contains_open_cell, C05_wrap_not_contained_refuted, C05_wrap_contained, C09_from_box_roundtrip, C09_from_box_dimension_conflict, C09_box_from_cpp, C09_scale, C09_from_box_drops_periodic_refuted, C10_setters_fresh, C10_set_L_fresh, C10_set_2d_no_tilt, C10_set_2d_tilted_refuted, C10_set_3d_zeroes_length_refuted, C10_reported_parameters, C10_constructor_parameters, C13_in_range, C13_out_of_range, C13_edges, C13_cells, C14_counts, C14_weights_in, C14_total, C14_wrong_arity, C14_number_types, C15_schedule_independent, C16_overwrites_refuted, C17_history, C17_only_frames_since_reset, C20_filter_r, C20_filter_r_rejects, C20_commute, C20_idempotent, C23_sort, C25_filters_covered, C26_accepted_linkcell, C27_wrapped_in_cell, C28_tree, C28_traversal, C36_raises, C36_buffer_box, C36_distance, C36_images, C36_images_home, C36_aperiodic_refuted, C36_outside_point_refuted, C47_tensor_turns, C50_reject, C50_sizes, C50_mean, C50_default_query_values_refuted, C51_reject, C51_fraction, C51_far_refuted, C52_reject, C52_dimension, C53_reject, C55_sign, C56_symmetric, C56_traceless, C56_lines, C56_permutation, C57_scale, C58_constructor, C58_threshold, C59_group, C59_matrix, C61_constructor, C61_norm, C61_bounds, C61_mean_particle_order, C61_perfect, C61_rotation, C61_cube_symmetry, C61_order_of_particles, C64_accept, C64_box, C64_count, C64_points, C64_tiling, C64_aligned, C64_tilted_refuted, C66_debye_constructor, C66_debye_one_value_refuted, C66_debye_k_values, C66_direct_constructor, C67_domain, C67_table_symmetric, C69_reject, C69_in_range, C69_symmetric, C69_overflow_refuted, C73_rows, C73_equivalent, C73_rotation, C73_scale, C73_lists, C73_default, C73_raises, C73_unchecked_refuted, C73_single_refuted, C75_kabsch, C75_enough, C76_cube, C76_cubic_refuted, C86_system, C86_random, C89_wrapped, C89_frames, C89_cluster, C90_frames, C90_cluster, C90_generate, C92_correlation, C93_correlation_counts, C93_correlation_ones, C95_voxels, C96_bins, C96_correlation, C96_counts.
* **functional_extensionality_dep, sig_forall_dec, sig_not_dec**: C06_min_image, C06_distance, C07_plane_distance_bound, C07_plane_distance_attained, C07_plane_distance_attained_2d, C07_no_two_images_in_ball, C08_distance_lattice_invariant, C08_compute_distances, C08_compute_all_distances, C08_distance_symmetric_off_faces, C08_distance_symmetric_refuted, C09_matrix_roundtrip_3d, C09_matrix_roundtrip_2d, C18_from_arrays, C19_reachable_valid, C19_counts_segments, C19_find_first_index, C19_segments_prefix_sum_refuted, C20_mask_length_checked_refuted, C21_machine, C21_all_pairs, C21_size, C22_query_list, C22_kept_by_filters, C22_all_pairs_opposite, C22_all_pairs_refuted, C22_rad_refuted, C23_sort_segments, C23_documented_order_refuted, C24_iterator, C24_loop_iterator, C24_query_equals_list, C25_query_list_reusable, C25_kept, C25_filter_accepted, C25_filter_reuse_refuted, C26_accepted_cellquery, C27_image_list, C27_image_vectors_distinct, C27_radius_check, C27_images_complete, C29_ball_near_images, C29_ball_brute_force, C29_ball_defined, C29_unwrapped_refuted, C29_negative_r_min_refuted, C31_single, C31_ball, C31_flags_ignored, C31_interleaved_refuted, C31_unwrapped_refuted, C34_aabb, C34_true_nearest, C34_defined, C34_agree, C34_stops_before_r_max_refuted, C34_large_guess_refuted, C36_orthorhombic, C36_tilted_distance_refuted, C37_sann_shell, C37_sann_raises, C37_sann_defined, C37_sann_empty_refuted, C38_rad_open, C38_rad_closed, C38_rad_raises, C38_closed_subset_open, C38_equal_radii_ties, C38_strictly_nearer_refuted, C43_clusters, C44_sound, C44_complete_separated, C44_clusters_exact, C44_greedy_refuted, C44_motif, C44_motif_local, C45_recompute, C45_recompute_refuted, C45_motif_refuted, C48_modes, C49_reject, C52_marks, C52_exact, C52_complete_refuted, C52_tilted_refuted, C53_values, C53_density, C53_exact, C53_dimension, C53_complete_refuted, C53_once_refuted, C54_reject, C54_zero_extent_refuted, C55_window, C55_autocorrelation, C55_values, C55_split, C55_read, C55_unwrapped, C55_rejected_refuted, C55_images_refuted, C55_lengths_refuted, C56_tensor, C56_form, C56_order, C56_rotation, C56_rotation_order, C57_bound, C57_permutation, C57_rotation, C57_ideal, C57_negative_weights_refuted, C58_bound, C58_symmetric, C59_isometry, C59_from_matrix, C59_round_trip, C59_axis_angle, C59_plane, C59_improper, C62_permutation, C62_weights, C66_debye_j0, C66_debye, C66_debye_min_valid_k, C66_debye_images, C66_direct, C66_direct_min_valid_k, C66_kpoints, C66_kpoints_orthorhombic, C66_tilted_kpoints_missing_refuted, C66_undefined_cast_refuted, C66_total, C66_cross_factors, C66_partials_sum, C66_faber_ziman_refuted, C66_lattice_images, C66_translation, C66_order, C66_all_directions_refuted, C67_table, C67_symbol_symmetric, C67_odd_zero, C67_error, C68_bound, C69_value, C73_bounds, C75_matching, C75_greedy_refuted, C75_fit, C75_least, C75_copy, C75_degenerate_refuted, C75_empty_refuted, C75_proper, C75_motif, C75_minimizer, C75_minimize, C76_accept, C76_reject, C76_centre, C76_order, C76_depth, C76_periodic, C76_translation, C76_axes, C76_pixels, C76_aligned, C76_scale, C76_average, C76_k, C76_transposed_refuted, C76_k_vectors_refuted, C76_weights_refuted, C76_erased_refuted, C76_k_alias_refuted, C76_view_refuted, C83_described, C83_agree, C83_matrix, C83_left_handed_refuted, C83_rotated_refuted, C83_mda, C83_dimensions_refuted, C83_points, C83_reject, C83_dimensions, C86_structure, C86_coordination, C86_density, C86_query, C86_rectangular, C86_oblique, C89_setting, C90_setting, C92_setting, C93_voxels_density, C95_gaussian.
* **classic, functional_extensionality_dep, sig_forall_dec, sig_not_dec**: C08_distance_symmetric_orthorhombic, C09_lengths_angles_roundtrip, C11_center_of_mass_in_cell, C11_center_of_mass_images, C11_center_of_mass_permutation, C11_center_of_mass_mass_scale, C11_center_of_mass_coincident, C11_center_of_mass_translation, C11_center_positions, C11_center_at_origin, C11_aperiodic_single_point_refuted, C22_nearest_query, C22_ball_query, C22_linkcell_any_radius, C26_accepted_aabb, C26_ball_values, C26_nearest_values, C26_idempotent, C26_sentinel_refuted, C30_constructor_defined, C30_cell_list, C30_ball_wrapped, C30_ball_brute_force, C30_large_radius_refuted, C30_negative_width_refuted, C32_ball, C32_agree, C32_neighbor_lists, C34_linkcell, C34_linkcell_true_nearest, C34_linkcell_defined, C34_query, C34_linkcell_elongated_refuted, C35_rejected, C35_raises, C35_unchecked_refuted, C42_sizes, C42_centers, C42_gyrations, C42_inertia, C42_radius, C42_com_no_masses, C42_com_equal_masses, C42_com_sorted, C42_masses_refuted, C42_short_masses_refuted, C46_least_angle, C46_symmetric, C46_neighbor, C46_neighbor_actual, C46_neighbor_refuted, C46_default_refuted, C46_global, C47_rows, C47_every_bond, C47_rotation_invariant, C47_every_bond_refuted, C48_direction, C48_down_refuted, C48_bond_order, C49_values, C49_cumulative, C49_mode_refuted, C49_frames_refuted, C51_values, C51_default, C54_values, C54_accept, C54_coordinates, C54_rotation_2d, C54_rotation_3d, C54_exchange, C54_pmft, C54_failed_call_refuted, C54_bounds_refuted, C57_value, C57_reject, C58_accept, C58_qij, C58_connections, C58_links, C58_harmonics, C58_clusters, C58_alone, C58_largest, C58_sizes, C58_angles, C58_rotation, C58_more_than_refuted, C58_nlist_refuted, C58_largest_refuted, C58_result, C61_zero_replicates, C61_values, C61_seed_free, C61_same_cutting, C61_single_replicate, C61_more_replicates, C61_start_within_one_radian, C61_not_optimal_refuted, C61_cutting_refuted, C61_annealing, C62_accept, C62_harmonics, C62_ql, C62_order, C62_wl, C62_angles, C62_bound, C62_aligned, C62_rotation, C62_rotation_results, C62_plain_ql_refuted, C62_nan_only_refuted, C62_coincident_refuted, C62_negative_weights_refuted, C65_bin, C65_bin_infinite, C65_bin_monotone, C65_bin_first, C65_bin_accurate, C65_histogram, C65_nan_refuted, C65_tiny_axis_refuted, C65_huge_axis_refuted, C65_many_bins_refuted, C65_edges_refuted, C65_fmod, C65_modulus, C65_modulus_overflow_refuted, C65_angle, C65_wrap, C65_wrap_inside_refuted, C65_wrap_idempotent_refuted, C66_sinc_average, C66_debye_bound, C67_compute, C67_values, C67_odd_order, C68_real, C68_rotation, C68_results, C69_bounds, C70_total, C70_bonds, C70_vectors, C70_per_point, C70_symmetric, C70_polytopes, C70_history, C70_shared_list, C70_flags, C70_nonperiodic_refuted, C70_snapshot_refuted, C71_rows, C71_value, C71_isolated, C71_single, C71_power_bounds, C71_log_bounds, C71_exp_bounds, C71_documented_power_refuted, C71_order, C71_scale, C71_system, C71_arguments, C72_list, C72_ball, C72_total, C72_same, C72_exchange, C72_self, C72_monotone, C72_default_refuted, C72_unchecked_refuted, C76_bounds, C76_width_refuted, C77_floats, C77_runs, C77_exact, C77_counter_refuted, C77_particles, C77_nematic_refuted, C77_nematic, C77_entries, C77_tensor, C78_ball, C78_defined, C78_inside, C78_outside, C78_order, C78_symmetric, C78_symmetric_refuted, C78_nan_refuted, C78_refused, C79_cells, C79_defined, C79_once, C79_inside, C79_outside, C79_agree, C79_tilted_refuted, C79_lost_refuted, C81_matrix, C81_rows, C81_accurate, C81_self, C81_symmetric, C81_symmetric_open, C81_symmetric_refuted, C81_flat_refuted, C81_linkcell, C81_aabb, C81_same_bits_refuted, C82_bonds, C82_closest, C82_short, C82_ends, C82_once, C82_accurate, C82_query, C82_twice_refuted, C82_stuck_refuted, C82_nan_scale_refuted, C84_search, C84_local, C84_undefined, C84_refused, C84_inside, C84_outside, C84_once, C84_agree, C84_lost_refuted, C84_flat_refuted, C84_periodic_refuted, C84_machine, C84_overflow_refuted, C85_counts, C85_bits, C85_defined, C85_rdf, C85_n_r, C85_system, C85_edge_refuted, C85_nan_refuted, C85_arguments, C87_width, C87_accepts, C87_few_refuted, C87_cube, C87_occupancy, C87_units, C87_square, C87_square_units_refuted, C87_square_cells_refuted, C87_query, C88_same, C88_safe, C88_refused, C88_endless_refuted, C88_raises_refuted, C89_bonds, C89_rdf, C89_local_density, C89_hexatic, C90_bonds, C90_rdf, C90_local_density, C90_hexatic, C90_crystal, C91_arguments, C91_defined, C91_number, C91_density, C91_count, C91_negative_refuted, C91_zero_diameter_refuted, C92_bonds, C92_self, C92_rdf, C92_local_density, C92_pmft, C92_single, C92_single_refuted, C92_nearest_refuted, C93_pmftr12_rdf, C93_xyt_xy, C93_local_density_rdf, C93_interface_cluster, C94_filter_r, C94_exclude_ii, C94_nearest_ball, C94_rdf_range, C95_points, C95_queries, C95_partial_rdfs, C95_exclude_refuted, C96_rdf, C96_rdf_range, C96_float, C96_float_near, C96_float_refuted, C96_pmft, C96_pmft_mean, C96_bond_order.
