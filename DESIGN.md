# Formal model of aslam_cv2 in Coq

Source under study: `/repo` (ethz-asl/aslam_cv2, pinned commit), read as text.
Everything here is Coq 8.16.1; sources are in `rocq/theories`.

## Layout

For a component `X` there are up to four files:

* `XModel.v`  – executable Gallina model, every definition cites file and lines in `/repo`;
* `XSpec.v`   – the small independent specification (no model helpers), if the property needs one;
* `XProofs.v` – lemmas;
* `XProps.v`  – only the property theorems (each closed by `exact`), `Print Assumptions`, and the
  examples showing that the hypotheses are satisfiable.

Naming: `..._refuted` is a proof that the code (the model of it) violates the English statement;
`..._partial` is a proved part of a statement that does not hold or could not be proved in full.

## Conventions of the models

* `CHECK`, `LOG(FATAL)` are a distinct outcome (`Abort`/`None`), undefined behaviour is a distinct
  outcome (`UB`) where a property touches it.  No default value stands for an error.
* Sizes and indices are `nat`/`Z` without overflow unless the property is about wrap-around
  (serialisation headers, hash ids, popcount lanes, int64 time), where `mod 2^n` is explicit.
* Threads: an execution is a list of atomic steps chosen by an arbitrary scheduler.  A step is one
  critical section between mutex operations (the code between taking the mutex and waiting or
  releasing).  Condition variables: a sleeping thread is in a wait set; `notify_all` empties the set,
  `notify_one` removes an arbitrary member; spurious wake-ups are additional steps.  Data races
  outside mutexes are modelled as separate atomic steps.
* Floating point: where the property is algebraic (cameras, distortions, triangulation, circle
  fitting) the model is over the reals `R`, i.e. rounding is not modelled.  Where only comparisons
  matter (matching, grids, medians) values are in `Z` or `Q`.

## Plan per property

| id | model | method |
|----|-------|--------|
| C01–C05 | `RwLock*`: both lock classes as a transition system over any number of threads; per-thread program counter, the five fields, two wait sets | inductive invariant over all step lists (counters = number of threads in the corresponding phase; wait conditions of un-notified sleepers are true); isInUse refuted for the reader-first class by a 2-step run |
| C06–C11 | `ThreadPool*`: queue, guards, counters, stop flag, any number of workers and clients, one condition variable | inductive invariant; order by relating the queue and the start trace; C11 refuted by a 4-step run |
| C12–C15 | `NPipeline*`: `processing_`/`completed_` as sorted association lists, `work`, the getters and the drop heuristic as pure state steps | invariant over operation lists; C14/C15 partly refuted with concrete histories |
| C16 | `NPipelineWait*`: the flag/condition-variable protocol of shutdown as transition system | refuted by a 4-step run; the repaired protocol (flag set under the mutex) proved to show that the model can express it |
| C17–C20 | `Serialization*`: byte lists, little-endian 32/64 bit words, out-of-bounds read/write as `UB` | round trips by induction; decoder soundness; UB refutations with concrete byte strings |
| C21–C23 | `HashId*`: ids as 16-byte lists, hex printing/parsing incl. the `stoul` quirks, decimal digit spelling, counter | round-trip, injectivity, induction over draws |
| C24–C26 | `OccupancyGrid*`: grid of lists of weighted points over `Z` coordinates and rational cell sizes | invariants over operation lists; C26 partly refuted |
| C27, C28 | `StlHelpers*` | list induction, permutation/sortedness characterisation |
| C29 | `Statistics*`, `AccumulatorProofs` | refinement to the list of all samples |
| C30 | `Statistics*` | refinement to a map from tags to sample lists |
| C31, C32 | `Descriptor*`, `HammingProofs`: bytes as `N`, 16-byte lanes with 8-bit wrap | exactness by induction + finite sweep of nibbles; wrap refutation |
| C33, C34 | `Channel*`: heap of channel cells, groups as maps from names to cell addresses | refinement to maps; deadlock run for C34 |
| C35–C37 | `Frame*` | list lemmas; C36 partly refuted |
| C38 | `Rig*` | refuted for the empty multi-frame, proved otherwise |
| C39 | `Rig*` | invariant over operation lists; refuted for `cloneRigWithoutDistortion` |
| C40 | `Track*` | invariant over histories |
| C41 | `GyroTracker*` | list lemmas (filter, sort, prefix) |
| C42–C44 | `GyroMatcher*` | invariant of the matching loop; refutations for order dependence, last row, complement descriptor |
| C45–C48, C56 | `Camera*` over `R` | algebra (`field`), derivatives with Coquelicot; refutations at the special branches |
| C49, C76, C77 | `Triangulation*` over `R`; column-pivoted QR as pivoted orthogonalisation on lists of columns | `TriangulationQr.v`: rank, pivots and solution by induction over the pivot steps; normal equations and optimality; refutations for rank wrap-around, index and position mix-ups |
| C50 | `AprilGrid*` | arithmetic (`div`/`mod`) |
| C51 | `Circle*` over `R` | algebra |
| C52 | `Fed*` | modular arithmetic |
| C53 | `Ransac*`: loop with the sampled model, the shuffle, the generator and the clock as parameters | refuted by the overfull comma initialiser; the rest analysed for any working model fit |
| C54 | `TrackBox*` | refuted for negative coordinates, proved for non-negative |
| C55 | `TimeText*` | refuted for nine-digit negative values, proved for the others |
| C57 | `Outlier*` | list induction |
| C58 | `NPipelineWait*` | wake-up of the waiting getters, invariant over all schedules |
| C59 | `Serialization*` | round trips per value type; refutations with concrete values |
| C60, C61 | `HashId*` | `strtoul` modelled; refuted by concrete strings; order and equality of ids |
| C62, C63 | `StlHelpers*` | sortedness/permutation; every stream of random indices |
| C64 | `OccupancyGrid*` | arithmetic on the cell counts; exact condition |
| C65 | `Statistics*` | refinement to the sample list |
| C66, C67 | `Frame*` | list lemmas; refuted for several descriptor blocks / index one past the end |
| C68, C69 | `GyroTracker*` | case analysis; contracts of the external calls as hypotheses |
| C70–C72 | `GyroMatcher*` | invariant of the matching loop |
| C73 | `Lidar*` | refuted by two intrinsics with different projections |
| C74, C75 | `AprilGrid*` | list search, `div`/`mod` |
| C78, C79 | `Ransac*` | trigonometry over `R`; determinism of the generator state |
| C80 | `DescRef*` | heap of blocks with ownership; invariant over all legal histories; frame lemma per operation |
| C81 | `DescRef*` | list induction over the shuffled positions |
| C82, C83 | `Predict*` | loop invariants over output buffers; quaternion algebra over `R`; camera round trips of C45, C46 |
| C84 | `Insert*` | list algebra of resize and segment writes; refutations by evaluation |
| C85, C86 | `YamlMatrix*` | induction over rows of the document; inversion of the reader; refutations by evaluation |
| C87 | `Undistort*` | extremes as fold invariants; affine interpolation over `R`; sizes by evaluation in binary32/binary64 (`SpecFloat`) |
| C88 | `Undistort*` | projection round trips of C45, C46; fixed-point packing by `div`/`mod`; rounding from Flocq |
| C89 | `Covariance*` | exchange of finite sums: the quadratic form of `T a T'`; orthonormality of `turn`; coefficients recovered from covariances of the axes |
| C90, C91, C92 | `SensorYaml*` | documents as trees; round trip by composition of the readers of the members; inversion of the reader for acceptance; refutations by evaluation |
| C93 | `Diffusion*` | summation by parts over rows and columns; the step as a convex combination of neighbours |
| C94 | `Contrast*` | histogram as counting function; first bin above the fraction; counters saturating at 2^24 |
| C95 | `FedTime*` | finite Fourier sums for the sum of `1 / sin^2`; factorisation of `sin ((2n+1) x)` for the product of the rates; reordering of C52 |
| C96 | `Aos*` | Thomas algorithm by induction over the diagonal; diagonal dominance; maximum principle |
| C97 | `Extrema*` | the scan as filter; invariant of the suppression lists; Cramer's rule for the refinement |
| C98 | `Orient*` | real trigonometry; the window as an interval of angles; fold invariant of the maximum |
| C99 | `Surf*` | one parametrised description of the twelve functions; norms over finite sums; bilinear interpolation over `R` |
| C100 | `LsdOrder*` | scan over the pixels; the linked list as permutation (chain lemma); seeds by index |
| C101, C103 | `LsdRegion*`, `LsdGrow*`, `LsdSegment*` | invariant of region growing (connected, unused, aligned); measure on unused pixels for termination |
| C102 | `LsdRect*` | weighted moments; the smallest eigenvector of the inertia matrix; extents as fold invariants |
| C104 | `LsdEdge*` | the whole chain evaluated symbolically for an edge of arbitrary size and contrast |
| C105 | `LsdFilter*` | induction over the segments; determinant of two lines |
| C106 | `LsdNfa*` | ratio of successive binomial terms; geometric bound of the tail; growth of `ln n! - n` |
| C107 | `LsdImprove*` | range of the rows and columns scanned; monotone fold over the candidates |
| C108 | `Focal*` | the true focal lengths solve every row; Cauchy-Schwarz for the normal equations; independence of the two rows of a tilted view |
| C109 | `NumDiff*` | Taylor remainders of order 1, 2 and 4 for the three difference schemes; sharp polynomial examples |
| C110 | `Mask*` | camera, caller and matrices as a heap; invariant "mask has the size of the image" over all operations |
| C111 | `Shutter*` | integer part of the coordinate, products with wrap-around at 64 bits |
| C112 | `Equal*` | every `operator==` and `isEqualImpl` as a boolean function, related to field-wise equality; norm bounds for `isApprox` |
| C113 | `VPipe*` | pipelines as state machines with ownership of detector and extractor; oracles for detection and undistortion |
| C114 | `TestRig*` | rigid transformations over `R`; position of a camera recovered from `T_C_B` |
| C115 | `Vanish*` | circles through the vanishing points of an ideal view; order statistics of the guesses |
| C116 | `ImageEq*` | the rows as flat lists of scalars; tolerance of each type |
| C117 | `KDeriv*` | separable correlation with mirrored border over `R`; moments of the kernels |
| C118 | `KUtil*` | fold invariants for extrema; selection relation for filters; images as functions |
| C119 | `KTrack*` | identifiers as pointer and two indices into a heap of multi-frames; tracks as lists; order as strict weak order |
| C120 | `LCompare*` | `cv::line` as oracle; the number as cardinality of a duplicate-free list; metric laws from inclusions |
| C121 | `EHash*` | 64-bit words as `N`; induction over the elements; hash table as buckets, invariant by induction over insertions |
| C122 | `Pnp*` | OpenGV's solver, refinement and the back-projection as oracles; distance of a correspondence as `1 - cos` of an angle; concrete scene with rational rotations |
| C123 | `RandPt*` | random numbers as arguments; reuses the cameras of C45, C46, C56; induction over the tries |
| C124 | `ClockText*` | characters as codes, durations as rationals; digits by induction on the width, rounding lemmas, invariant of the tag list |
| C125 | `ScaleSpace*`, `FedRangeProps` | filters as oracles with linearity as premise; reuses the steps of C95, C96 and the contrast of C94; induction over the levels; overshoot by symmetric functions of the four step sizes |
| C126 | `RawCoord*` | reuses the cameras of C45, C46, C56 and the vectorised loops; conversion against the undistortion map; history of outputs as arguments |
| C127 | `DescText*` | reuses the bytes of C19; channels as options; queries by induction over the blocks, invariant over histories |
| C128 | `Draw*` | pictures as lists of marks over the raw image; reuses the queries of C127 |
| C129 | `KDesc*` | reuses the orientation and the descriptors of C98, C99; executions as interleavings of the iterations; per-keypoint projection of a run by induction |
| C130 | `RadTanInv*` | uses the model of C47; exact polynomial remainder of the linearisation, Cauchy-Schwarz, quadratic contraction, induction over the loop |
| C131 | `EquiInv*` | uses the model of C47; action of the Jacobian along the ray and along the circle from its uniqueness, mean values, monotone Newton iteration by induction |
| C132 | `KSmooth*` | kernel as list, sums by induction; normalisation and symmetry of the weights; window from the ceiling |
| C133 | `GyroLen*` | uses the model of the gyro tracker; longest chain of continuations as inductive relation, invariant of the recorded histories |
| C134 | `LensOwn*` | heap of lenses and pointers of cameras and callers; ownership invariant over all histories, reports of other cameras unchanged |
| C135 | `YamlFile*`, `YamlCamera*` | disk as map from files to texts with limited room; yaml-cpp and conversions as parameters; histories of writes by induction, camera documents of C90 put in |
| C136 | `AlignedPtr*` | heap of blocks with their allocator, owners as list of pointers; invariant over permutations of the owners, for all histories |
| C137 | `NFrame*` | heap of frames and rigs shared by multi-frames; invariant over all histories of careful users, independence of multi-frames without common frames; refutations by concrete histories |
| C138 | `KFile*` | files as characters, "%g" with six digits over Q; reader as independent specification; induction over digits, rows and words |
| C139 | `TargetPdf*` | pages as lists of black rectangles over R, tables of codes as in the script; cell-wise characterisation of the page, distance of the codes by a checked computation over all pairs and orientations; corners linked to the model of the detector (`AprilGrid*`) |
| C140 | `Spread*` | sums over bits and descriptors exchanged; per bit k(n-k); modular arithmetic of unsigned char for the distances of pairs |
| C141 | `RandomSensor*` | the drawing of ids as a state; closed form of the loop over the cameras by induction; floor for the number of cameras, any monotone rounding; geometry of the poses from `TestRig*` |
| C142 | `FrameSwap*` | state of channels and typed variables; invariant of blocks and types by induction over programs; conservation as a permutation |
| C143 | `LsdDetect*` | the loop of flsd over all levels; simulation of the advanced level by a selection from the standard one; antitone acceptance from the nested phases of the improvement; bounds on ln 10 for the kernel |
| C144 | `IdText*` | injectivity of hexadecimal digits; decimal digits split; invariant of the generator's counter, pigeonhole; inverse of the prime modulo 2^64 |
| C145 | `MatErase*` | invariant of the copying loop (prefix filled, rest to come); rows by definitional transposition; ownership invariant over sequences of adapter operations |
| C146 | `KInlier*` | induction over the loop with a processed prefix; uniqueness of the selection to join it with C118; floor of shifted coordinates |
| C147 | `KSave*` | induction over the levels with the disk as a function; names by reading the digits back; scaling of C118 is idempotent |
| C148 | `Shuffle*` | pointwise description; exhaustive evaluation over one byte where bits are concerned; fold over the columns |
| C149 | `TargetYaml*` | case analysis along the sequence of reads and CHECKs; the readers of numbers are parameters; equality of lookups for the other keys |
| C150 | `EmptyFrame*` | induction over the cameras of the rig with the slots filled so far as invariant; evaluation for the channels |
| C151 | `FrameElem*` | arithmetic of the conversions to signed types; for the indices outside an exact characterisation of abort and undefined reads |
| C152 | `RigExtr*` | invariant over histories: as many transformations as cameras in every rig; the lookup by id from C39 |
| C153 | `TrackText*` | induction over the lines with an independent reader of fixed columns (substring, strip, parse); round trip of decimal numbers from the standard library |

## Result per property

Status as in `MANIFEST.json`. "partial" always means: the English statement is violated by the code (or by its model) in the case named, which is proved as a `..._refuted` theorem, and the part that does hold is proved.

| id | title | status | remarks |
|----|-------|--------|---------|
| C01 | Reader/writer lock mutual exclusion | proved | any number of threads, any schedule incl. spurious wake-ups; counters proved to stay in range |
| C02 | Reader-first lock mutual exclusion | proved | same transition system, reader-first loop conditions |
| C03 | Upgrade is atomic and unique | proved | both lock classes |
| C04 | No lost wake-up in the reader/writer lock | proved | both lock classes; also a bound on the number of steps until the lock is drained |
| C05 | isInUse() reports every use of the lock | partial | holds (as an equivalence) for the base class; refuted for the reader-first class, which reports holders but not waiting threads |
| C06 | Tasks of one group never overlap | proved | any number of workers and clients, any schedule |
| C07 | Tasks of one group run in submission order | proved |  |
| C08 | Accepted tasks are executed exactly once | proved |  |
| C09 | waitForEmptyQueue() means idle | proved |  |
| C10 | Workers never oversleep | partial | refuted: notify_one of enqueue can be consumed by a thread in waitForEmptyQueue, the task is then never started; proved (with a bound on the number of steps) for schedules in which nobody sleeps in waitForEmptyQueue between insertion and notification, in particular for a single client thread |
| C11 | A valid future is eventually fulfilled | partial | refuted: stop() between the unlocked check and the insertion loses the task; proved for tasks inserted while the stop flag is unset |
| C12 | Synchronised images lie within the tolerance | proved | for existing camera indices; index == number of cameras passes the CHECK_LE and is undefined behaviour (np_camera_check_refuted) |
| C13 | Images are grouped with the nearest group | proved |  |
| C14 | Completed frames come out in time order | partial | order of getNext and hand-over after every image proved; increasing output proved if new groups come in time order, refuted otherwise; after getLatestAndClear() a complete group can stay pending although nothing older is pending (refuted) |
| C15 | No complete multi-frame is lost | partial | refuted: the drop heuristic removes complete groups; proved which groups it can remove, conservation of images and delivery of everything completed |
| C16 | shutdown() releases blocked producers and consumers | partial | refuted: flag set without the mutex; proved if the flag is set while no thread is between reading it and wait() |
| C17 | Matrix channels survive serialization | partial | Round trip, size and format proved for all contents and all dimensions below 2^31 (fixed and dynamic); refuted for 2^32+1 rows, where the int conversion silently truncates the matrix. |
| C18 | Malformed matrix buffers are rejected | partial | For every byte string: CHECK failure, exception, or a matrix whose format is exactly the buffer; never an access outside. Re-serialization by the code itself proved for dimensions below 2^31 and refuted beyond (a 4294967295 x 0 matrix is accepted but cannot be written). |
| C19 | Vector-of-matrix channels survive serialization | partial | Round trip proved. Malformed buffers: what is accepted begins with the serialization of the result; truncated buffers are read out of bounds (refuted) and trailing garbage is accepted. |
| C20 | Image channels survive serialization and reject malformed buffers | partial | Round trip proved; malformed buffers are handled for 1..512 announced channels; with 513 channels the code writes beyond the image, with 0 channels it returns uninitialised pixels (refuted). |
| C21 | Hash id hexadecimal text form round-trips | proved | All 16-byte ids; strtoul modelled in full. |
| C22 | Ids generated from integers are distinct | proved | All unsigned 32-bit arguments. |
| C23 | Generated ids are unique and valid | proved | All interleavings of the two steps of the generator, arbitrary clock and seed; std::hash<uint64_t> is taken to be the identity. |
| C24 | Occupancy grid accounting | proved | Exact arithmetic on coordinates; positive cell sizes (the constructor does not check them). setConstantWeightForAllPointsInGrid changes weights, as documented. |
| C25 | Occupancy grid minimum distance | proved | Exact arithmetic; any iteration order of the hash map. |
| C26 | Occupancy grid keeps the strongest points | proved | std::partial_sort by its standard guarantee. For removePointsFromFullestCellsUntilSize see also C64. |
| C27 | Erasing by index removes exactly the given elements | partial | eraseIndicesFromVector proved for every duplicate-free list in any order. The matrix overload of eraseIndicesFromContainer calls back() of an empty index list and aborts on unsorted lists (sx_erase_container_refuted); for non-empty strictly increasing lists it is proved. |
| C28 | Median, mean and counting helpers | proved | Exact arithmetic; std::nth_element by its standard guarantee. |
| C29 | Windowed statistics are exact | partial | Exact (in exact arithmetic) for fewer than 2^31 samples; the int counters overflow at sample 2^31, and the rolling mean of no samples is 0/0. |
| C30 | Statistics registry gives each tag its own accumulator | proved | Also recorded: a collector created before Reset keeps feeding the old accumulator. |
| C31 | Vectorised Hamming distance is exact | partial | Exact for multiples of 16 bytes from 16 to 496 (x86) or to 2^25 words (ARM); wraps to 0 at 512 bytes, ignores trailing bytes, reads past short descriptors. |
| C32 | Binary descriptor mean and median | proved | The median is not in general the descriptor closest to the rounded mean (refuted). |
| C33 | Channel groups behave like a map and clones are independent | partial | Proved for every history without plain group assignment and without in-place pixel writes. Refuted: clones share image pixels, assignment shares all channels, comparison of differently typed channels aborts or answers depending on hash order. |
| C34 | Comparing two channel groups cannot deadlock | partial | Refuted: opposite-order comparisons deadlock. Proved for every interleaving when all comparisons respect one order. |
| C35 | Extending keypoint channels keeps columns aligned | proved |  |
| C36 | Discarding untracked observations keeps exactly the tracked ones | partial | Proved for the six channels the function handles and at most one descriptor block. Refuted: 3D positions and time offsets are not erased; several descriptor blocks abort. |
| C37 | Keypoint index to descriptor block lookup | partial | Index lookup fully proved. Partition by type needs distinct types: two blocks of one type (accepted by extendDescriptors) hide the second. |
| C38 | Minimum and maximum frame timestamps | partial | exact for both; the minimum does not fail when no frame is set (returns INT64_MAX) |
| C39 | Camera id to index map is consistent | partial | holds as long as ids are distinct after every step; refuted for cloneRigWithoutDistortion, exchanging two cameras with setCamera, and setId on a camera of a rig |
| C40 | Track ids are consistent along matches | partial | track ids are exactly the connected components of all applied matches, for histories with at most 2^31 matches and no resetIdProvider; refuted after a reset and after 2^31 tracks (size_t id narrowed to int) |
| C41 | Gyro tracker candidate selection | proved | std::sort is any function that sorts; the limit is floor(n * ratio) over exact rationals instead of double |
| C42 | Two-frame matches are one-to-one | partial | one-to-one and window parts hold always; the threshold part is refuted when the process has matched descriptors of another size before (static variable keeps the first size), and proved otherwise |
| C43 | The matching decision does not depend on candidate order | partial | refuted: distances 110 then 100 pass, 100 then 110 fail, the order of equal rows being up to std::sort; best candidate distance never depends on the order, the decision does not if all candidates qualify |
| C44 | Row look-up window returns exactly the keypoints in the window | partial | exact set of rows proved; refuted for the last image row, whose keypoints are never returned |
| C45 | Pinhole projection and back-projection are inverse | proved | Real arithmetic; lens given by its three functions, instantiated with the lens models of C47. |
| C46 | Unified projection and back-projection are inverse | partial | Exact strictly inside the liftable region and for xi <= 1; on its edge (xi > 1) backProject3 and isLiftable report success but the ray has no valid projection (refuted). Jacobians with respect to point, intrinsics and distortion coefficients proved for every valid projection. |
| C47 | Distortion models: inverse and Jacobians | partial | Real arithmetic. All Jacobians of the radial-tangential model are the derivatives everywhere; equidistant beyond 1e-8 from the centre (at the centre the code returns zero, refuted); fisheye off the switching circle, its parameter Jacobian only outside the inner disc (inside, the coordinates are missing as factors, refuted). Fisheye inverse exact up to 89 degrees outside the inner disc, refuted beyond and inside. Newton inverse: step and tolerance guarantee here; convergence is C130 and C131. |
| C48 | Homogeneous projection | partial | Keypoint invariant for pinhole and unified cameras; the status is not (minimum depth applied to the unnormalised coordinates); the Jacobian is right for a positive fourth coordinate and has the wrong sign for a negative one. |
| C49 | Linear triangulation reproduces the point | partial | Exact point on noise-free input when the status is Successful, and success for well-conditioned views. Refuted: rank minus number of views wraps around so parallel rays can be reported Successful; the track variant uses the first camera's extrinsics for all observations; the fast track variant never advances its column index; the Gauss-Newton variant anchors at the wrong vector and never reports Unobservable. |
| C50 | April-grid corner numbering matches the target geometry | proved | Includes the 32-bit index arithmetic; ex_negative_id shows why ids must not be negative (the range check has no lower bound). |
| C51 | Circle fitting and intersection are exact | partial | The fit is proved exact for all point sets on a circle that are not collinear, and undefined exactly for collinear ones. The intersection appends exactly the common points of circles with different centres, except when the half chord is below 1e-10, where one point off both circles is returned (refuted); equal circles give two NaN points (refuted). |
| C52 | Diffusion step reordering is a permutation | partial | Permutation for every number of steps from 2 to 30000 without further hypotheses, and for more as long as (p - 1) * (n / 2) fits into int (p the smallest prime above n); refuted for a single step (reads before the vector). |
| C53 | 3-D RANSAC returns the best model | partial | Refuted: every admissible call overfills a 3x3 comma initialiser in its first iteration; even with a working fit, rotation, translation and outliers are never written, the inliers are those of the last model instead of the best, and the stopping ratio is an integer division. Proved: the returned inliers are exactly the pairs that agree with one fitted model. |
| C54 | Feature track bounding box | partial | Proved when some keypoint has a positive u and some a positive v. Refuted for negative coordinates: the maximum starts at the smallest positive double. |
| C55 | Time to text conversion | partial | All 64-bit times except -999999999..-100000000, which print as '-s NNNNNNNNNns' (seconds field without digits). Texts are still pairwise different. |
| C56 | Lidar projection and back-projection are inverse | partial | Proved for images covering the full circle with a horizontal centre in [-pi, pi) and rays not straight up or down, at any distance above 0.01. Refuted: with centre pi column 0 comes back as column width, outside of the image; above pi whole ranges are shifted by the width. The maximal rolling shutter delay covers every keypoint for row cameras, but not for the lidar, which reads columns and does not override it. |
| C57 | Outlier rejection partitions the matches | partial | Proved for empty output lists and all RANSAC results. Refuted for output lists with earlier content: they are not cleared and the size check aborts. |
| C58 | Blocking pipeline calls sleep only for a reason | proved |  |
| C59 | Scalar channels survive serialization | partial | Buffers: exact. Strings: exact for integers within int64; unsigned 64-bit values from 2^63 throw, floating-point values lose everything below 1e-6 (refuted). |
| C60 | fromHexString accepts only hexadecimal text | partial | Refuted: "0x", "-1" and "1g" are accepted for a byte. Pairs of two non-digits throw. |
| C61 | Ids are usable as keys | proved |  |
| C62 | keepOnlyNSortedElements keeps the best n | proved | std::partial_sort by its standard guarantee. |
| C63 | drawNRandomElements draws without replacement | proved | Every stream of random indices; termination (the stream must contain n distinct values) is a hypothesis. |
| C64 | Occupancy grid meets the requested total | partial | Holds iff n is at least the number of occupied cells (or nothing has to be removed); otherwise the call aborts in CHECK_GT(max_points_per_cell, 0). |
| C65 | A timer contributes exactly its completed laps | proved |  |
| C66 | Clearing the keypoint channels leaves no keypoints and no descriptors | partial | Refuted for two or more descriptor blocks: only block 0 is cleared. |
| C67 | Selecting keypoints for bearing vectors stays in range | partial | Proved for valid indices. Refuted: CHECK_LE accepts the index one past the end. |
| C68 | Optical-flow matches and keypoints of the gyro tracker | partial | integer coordinates; refuted when the configured border is wider than the image (unsigned difference wraps around) |
| C69 | Gyro tracker bookkeeping over a sequence of frames | proved | contracts of matcher, prediction, optical flow and extraction are hypotheses (record sane) |
| C70 | Matching two valid frames never aborts | partial | refuted for complementary descriptors in one window and for a larger descriptor size after a smaller one; proved when every distance is below the descriptor size |
| C71 | A contested keypoint goes to the most similar claimant | proved | the selection by the search is the model function attempt |
| C72 | Accepted matches are distinctive | proved | for calls whose descriptor size is the one remembered by the process |
| C73 | Projection uses the intrinsics it is given | partial | Refuted for the lidar, whose projection reads the members only. The pinhole and unified camera models take the intrinsics as an argument, so the selection between members and external intrinsics is not modelled for them. |
| C74 | Corners of an observation can be looked up by id | partial | getObservedCornerById compares the id with the number of observed corners and aborts for larger ids, also of observed corners (refuted); for smaller ids it is proved correct. |
| C75 | Grid coordinates and point indices correspond | partial | pointToGridCoordinates returns (column, row), the other function takes (row, column): inverse only after swapping; used in order another point or an abort results (refuted). Width and height proved. |
| C76 | Linear triangulation returns the least-squares point | proved | Exact arithmetic; column-pivoted QR modelled as pivoted orthogonalisation. |
| C77 | Gauss-Newton triangulation uses the true Jacobian | proved | Derivative in the sense of Coquelicot's is_derive, all three parameters. |
| C78 | Pixel sigma becomes the matching angular threshold | proved | Real arithmetic. |
| C79 | RANSAC seeding follows the random_seed flag | partial | Refuted: the flag acts the other way round; with random_seed false the outside seed has no effect and all iterations within a second draw the same sample. Proved: with random_seed true the generator state alone decides. |
| C80 | Descriptor references own, copy and free their memory correctly | partial | Proved for histories with C++ object lifetimes, views on external memory only and without Release/set_data on owners, for any definite value of the uninitialised owned_ member. Refuted: the copy constructor reads owned_ uninitialised; Release keeps the size (null access later); set_data leaks; views on an owner's buffer lead to use after free; assigning an empty descriptor gives unequal objects. |
| C81 | FlipNRandomBits changes exactly the requested number of bits | partial | Exactly n bits are flipped for every shuffle and every n below the number of bits; n equal to the number of bits is rejected although the message says 'more than everything'. |
| C82 | Keypoints predicted by a rotation are where the rotated camera sees them | partial | Proved for frames with keypoints. Refuted: with no keypoints the output matrix keeps its old contents; the identity branch does not return, so keypoints outside of the image fail. |
| C83 | Bearing vectors of matches correspond to the matches | partial | Order, length, normalization and projection proved; the success flags are dropped, so keypoints without a ray are passed on. |
| C84 | Inserting keypoints keeps every channel of a frame aligned | partial | Proved for frames with one block of descriptors and descriptors of equal size. Refuted otherwise: the code does not compare descriptor sizes (uninitialised bytes or a write out of bounds, in particular after clearKeypointChannels) and uses the number of all keypoints for the first descriptor block. |
| C85 | Matrices survive a round trip through YAML | proved | The codec of yaml-cpp for numbers is a parameter; f is the identity if its texts have enough digits. Matrices without coefficients abort in encode (ymx_empty_refuted), they are excluded in the statement. |
| C86 | A YAML document is read as the matrix it means, or refused | partial | The length check for sequences inside a linear array is inverted: a column of one-element rows aborts, longer rows are truncated silently, empty ones are read beyond the end. Wrong row lengths abort instead of returning false. 0 x 0 documents accept any data. |
| C87 | The optimal new camera matrix shows what alpha promises | partial | Rectangles and interpolation proved for all lens models whose inner rectangle is not empty. Refuted: the grid reaches one pixel beyond the image, so an undistorted camera changes its matrix and alpha = 0 has invalid pixels; more than 180 degrees give a negative focal length; the output width is computed in double for the matrix and in float for the camera (447 and 448 for 640 * 0.7f). |
| C88 | Every entry of an undistortion map points to where the ray of the output pixel is seen | partial | Proved for rays to the front and positions within 16 bits. Refuted: positions outside of 16 bits wrap around into the image; rays to the back of a unified output camera are mirrored by the division by a negative depth. |
| C89 | Rotating a covariance only changes the frame | proved | All statements for exact reals and unit quaternions; the lever arm of the translation of T_B_A is not applied by the code (name: rotate). |
| C90 | Documents of cameras | partial | Proved: the round trip, exact for every member but the mask, into any object of the class and with the factory. Refuted: a mask of the object that is read into stays although the size of the image changes. |
| C91 | Documents of camera rigs | partial | Proved: the round trip of rigs with cameras into new rigs, and the index. Refuted: reading into a rig with cameras appends (a rig that reads its own document has every camera twice); the document of a rig without cameras is refused. |
| C92 | Reading arbitrary sensor documents | partial | Proved: what deserialize accepts is valid and is what the document says; with an id in order and convertible vectors it returns. Refuted: malformed ids, transformations and covariances end the program or throw; a camera object takes the type of another class; refused documents leave an invalid camera, or cameras that are not in the index; two cameras with one id are accepted; a distortion none without parameters is refused. |
| C93 | Explicit nonlinear diffusion conserves brightness and creates no new extrema | proved | Real arithmetic without rounding. |
| C94 | The contrast factor is the requested percentile of the gradients and never zero | partial | Proved for up to 2^24 pixels, positive if the fraction is at least one pixel. Refuted otherwise: a flat image or one with few edges gives 0, by which the conductivities divide; beyond 2^24 pixels the float counters stop. |
| C95 | The steps of fast explicit diffusion last exactly the requested time and are stable | partial | Proved without reordering for at least one step, with reordering for 2 to 30000 steps, and for levels that are far enough apart (the default options are). Refuted: twelve sublevels with the default soffset give a single step, whose reordering is undefined; very short cycles have no step. |
| C96 | The implicit diffusion step solves its equations for every image size and step size | partial | Proved for square images. Refuted for all others: the auxiliary image Ltx_ has the wrong orientation, so wider images are written out of bounds and taller ones throw. |
| C97 | KAZE keypoints are exactly the local maxima in space and scale, apart from suppressed neighbours | partial | Soundness, completeness up to suppression and the refinement are proved. Refuted: keypoints of adjacent levels can stay nearer than the scale (only the first near keypoint is compared); the check of the border is overwritten; keypoints already in the vector stay. |
| C98 | The main orientation is the direction of the longest sum of gradients | partial | Proved when no gradient points exactly along the x axis. Refuted in general: a gradient whose angle is exactly 0 is in no window, so the strongest gradients can be ignored. |
| C99 | KAZE descriptors are unit vectors of bilinearly interpolated samples | partial | Proved for all twelve functions, over real numbers; the invariance under rotation for derivatives that are linear around the keypoint, with all samples in the image. Refuted: flat patches give NaN; below one half of a pixel the interpolation extrapolates and leaves the range of the pixels; rotated M-SURF descriptors do not interpolate there and are not exact for affine images; the weights of the cells of M-SURF are centred one sample beside the centre. |
| C100 | Gradient and seed order of the line segment detector | partial | Gradient, angle, reads and bins are proved. The order is refuted: ll_angle only links the entries of the list by their next pointers (lsx_chain: following them would give each pixel once, highest bins first), but flsd goes through the list by index, so seeds are tried row by row, and afterwards the first pixel again once for each pixel of the last row and column (lsx_seeds, lsx_order_refuted). |
| C101 | Regions grown by the line segment detector | partial | Proved for all tolerances as far as it does not concern the angles (lgx_region), and for tolerances below 90 degrees otherwise. Refuted for every tolerance from 90 degrees on, which the constructor accepts (below 180): isAligned only wraps differences above 3/2 pi, so pixels 90 degrees away across angle 0 are rejected. |
| C102 | The rectangle of a line support region | partial | Proved over the reals for every region with positive weights: centre, optimal axis, ends, width, direction, and that the call throws exactly for one distinct pixel. Refuted: a pixel of the region can lie outside the rectangle, because the rectangle is taken symmetric about the axis though the extent is not, and the ends reported can have negative coordinates. |
| C103 | Segments have disjoint supports and detection ends | partial | Proved over the reals for refinement levels none and standard and the image after scaling. Freedom from exceptions is proved for angle thresholds of at least 10 degrees (the detector uses 16.5) and refuted for all valid ones: with a threshold of 1 degree a region of one pixel in a small image makes get_theta throw. |
| C104 | An ideal edge gives exactly one segment | proved | End to end through gradient, seeds, region growing, rectangle and refinement, over the reals, at scale one (no blurring and resizing). |
| C105 | Filters of line segments and intersection of lines | partial | Proved for std::vector arguments, which is what the library passes. Refuted: in a cv::Mat with one column, which detect and the filters themselves produce, only the first segment is looked at and the others are dropped uncounted; intersection cuts off the fractions, so the point is up to a pixel off and not on the lines; a degenerate segment on a line is reported as parallel; a horizontal line has angle 0 and is outside every range (min, 180] with min > 0. Real numbers instead of floats. |
| C106 | The number of false alarms of a line segment | partial | Proved exact for k = 0 and k = n. Refuted otherwise: the code uses n + 1 in place of log_gamma(n + 1), so the probability is multiplied by exp(n + 1) / n! (the sum itself is right up to the accepted tenth of the value, lnx_tail) and the significance is overstated by at least log10(n! / exp(n + 1)), which grows without bound. Takes log_gamma to be exact at the integers; real numbers instead of doubles. |
| C107 | Counting and improving the rectangles of line segments | partial | Memory safety of the count and all claims about the improvement are proved. Refuted: the pixels counted are not those of the rectangle; of a rectangle along the x axis only the column at its start is counted however long it is (the right border starts at the first corner with the least y and its step is 0), of one along the y axis only its left column. The steps are quotients of ints and two of them mix x with y (tailp->p.x for p.y). |
| C108 | The absolute conic gives the focal lengths | partial | Exact recovery is proved in real arithmetic for any list of complete views with at least one tilted view (cv::findHomography is an oracle giving an exact homography). The reporting part is false of the code: frontal views give infinite focal lengths and true is still returned (flx_frontal_refuted), and an incomplete view leaves two uninitialised rows in the equations which can make the result any pair of focal lengths (flx_incomplete_refuted). |
| C109 | A Jacobian passes the finite difference test exactly if it is right up to a known error | partial | Proved over the reals for all three schemes, with the sharp constants. The last sentence is false: the argument is the square of a relative step, the distance used is sqrt(max(STEP, 2^-52)) times the coordinate (nux_step_refuted). Rounding of the differences is not modelled. |
| C110 | Masks of cameras | partial | Meaning, memory safety without size changes and independence of clones are proved. Refuted: setImageWidth/Height do not check or drop the mask, so that a visible keypoint is looked up outside of it; setMask shares the matrix of the caller; a NaN keypoint is not masked without a mask and undefined behaviour with one. |
| C111 | Delays of rolling shutter cameras | partial | Proved for keypoints at or after the first line as long as the product fits into int64_t. Refuted: Camera3DLidar does not override maxRollingShutterDelayNanoSeconds (its function has another name), so that it is computed from the rows and visible keypoints are read after it; it is one line more than the time between the first and the last row; the line before the first has the delay of the first; products wrap around; NaN is undefined. |
| C112 | Equality of cameras, rigs, frames and multi-frames | partial | Meaning, reflexivity, symmetry, clones and the bound on projections are proved. Refuted: equality is not transitive (isApprox); masks of cameras, covariances of rigs and ids and raw cameras of frames are ignored; a multi-frame with frames that are null cannot be compared even with itself. |
| C113 | Frames made by the visual pipelines | partial | Proved for the common code and the life of the BRISK pipeline, with detector, extractor and undistortion as oracles. Refuted for FREAK: its members are reset with the raw pointers inside temporary cv::Ptr objects, which free the detector and the extractor at the end of the statement; every use and the destruction are undefined behaviour. |
| C114 | Generated camera rigs are where they say they are | partial | Orientations are proved, and where the cameras are. Refuted: the cameras of the test rig are displaced along y of the body; the surround view rig uses -t_B_C as translation of T_C_B without rotating it, so that no camera is at its position (the first is to the right of the body instead of in front). |
| C115 | The focal length from vanishing points is exact for ideal views and fails visibly otherwise | partial | Exactness for ideal views, the meaning of an estimate, and the meaning of 'false' are proved. The last claim is false: one straight row (an image without distortion) or two rows on the same circle in any complete view makes a NaN guess, and true is returned with focal lengths that come from NaN. |
| C116 | Images compare equal exactly if all their values agree | partial | Exact for single-channel images of whole numbers (equality, the tolerance is ignored) and of floats (relative tolerance). False in general: with several channels only the first cols + channels - 1 scalars of each row are compared, the tolerance is not absolute, and images of doubles are never equal. |
| C117 | KAZE derivatives and detector response are exact and treat both axes alike | partial | Exact on every quadratic patch that is one (gradient) or two (Hessian) scales away from the border; brightness, contrast and mirroring everywhere; transposition away from the border. False at the border: first derivatives across the border are always zero and the response changes when rows and columns are exchanged; scales from 500 overflow the kernel buffer, scale 0 gives an infinite kernel. Real arithmetic without rounding. |
| C118 | Helper functions of KAZE | partial | Scaling, ratio test, inliers, composition and reading proved for well-formed inputs. Refuted: flat images become NaN; if all values exceed 1000, 1000 is subtracted; a single candidate or an odd list is read out of bounds; a smaller second image is read out of bounds although a resized copy is computed; incomplete homography files are accepted and give NaN. |
| C119 | Keypoint identifiers and feature tracks | partial | Creation, access and stability under modifications elsewhere, list behaviour, orders and printing proved. Refuted: other owners can replace keypoints or frames under an identifier; a multi-frame without rig gives identifiers whose camera aborts; popping an empty track is undefined; ids from 2^31 abort or wrap to other ids when a track is continued; a list with an empty track cannot be printed. |
| C120 | Drawing and comparing line segments | partial | Proved for vectors of segments, with cv::line and cv::cvtColor as oracles. Refuted: of a one-column matrix, which detect writes into a cv::Mat, only the first segment is compared; showing without image always throws because the canvas has one channel; regions of interest throw; the byte index wraps for images of more than 2^32/3 pixels. |
| C121 | Matrices as keys of hash tables | partial | Tables with keys of one size are proved to work; matrices that differ only in the last element have different hashes. Refuted: neighbouring cells of a grid collide, e.g. (0, 61) and (1, 0); the size is not part of the hash, so that keys of different sizes collide and their comparison is an assertion of Eigen; keys with NaN are never found. |
| C122 | Poses from keypoints and landmarks | partial | Pairing, inliers of the unrefined pose, failure and definedness proved. Refuted: inliers and distances of a refined pose are those of the pose before (pnx_refined_refuted); the single-camera version ignores run_nonlinear_refinement, so calibration targets are never refined (pnx_flag, pnx_target_refuted); failed back-projections take part (pnx_failed_refuted); in a rig with different focal lengths pixel_sigma is no pixel distance of a single camera (pnx_mixed_refuted). |
| C123 | Random points of cameras, and their parameters | partial | Positive parts proved. Refuted: negative depths abort (rpx_negative_refuted); points nearer than 1e-10 are not visible (rpx_near_refuted); the unified camera returns the centre for xi = 1 (rpx_parabolic_refuted), also if outside of the image (rpx_centre_refuted), throws its twentieth draw away (rpx_twentieth_refuted) and never draws liftable keypoints for larger xi (rpx_reach_refuted); Camera::setParameters accepts invalid parameters (rpx_set_refuted); the default lidar has three parameters (rpx_default_refuted). |
| C124 | The timing report says what was measured | partial | Refuted: 59.9999999 s reads 00:00:60.000000; a negative duration gives no clock text; 100 hours sort before 99; tags that differ only in colon and hash share a YAML key; WriteToYamlFile leaves the old file after Reset; a query of an unknown tag adds a row. |
| C125 | The nonlinear scale space of an image | partial | Refuted: an unsupported diffusivity returns success and copies the first level; a flat image gives levels that are not numbers (contrast factor 0); the implicit scheme has no result for images that are not square; a cycle of four explicit steps makes a pixel darker than the darkest of the level before, with all conductivities from 1/10 to 1. The range is proved for the implicit scheme and for explicit steps up to a quarter. |
| C126 | Raw image coordinates and border rays | partial | Refuted: for keypoints without ray the single conversion leaves the output and the vectorised one writes coordinates; frames without raw camera use a null pointer; indices from 2^31 on pass the CHECK; for rays to the back the undistortion map and the conversion disagree; border rays of unified cameras with xi > 1 may belong to no keypoint; the homogeneous Jacobian of an invalid unified projection is uninitialised, the lidar aborts. |
| C127 | Descriptors restored from text | partial | Refuted: reading descriptors into a new frame leaves it without types, every query and change then aborts until setDescriptorTypes is called; reading them into a frame in use keeps the old types, a type without block is then read outside of the vector; counting the keypoints of a type aborts without a descriptor channel although the documentation promises 0. |
| C128 | Pictures of keypoints and matches | partial | Refuted: without keypoints of the type drawKeypoints leaves the picture of the call before; negative indices pass the check and draw a keypoint of the type before or read outside; drawKeypointMatches aborts for frames without the type even without matches; dots are not on the nearest pixel. How OpenCV sets the pixels of a mark is not modelled. |
| C129 | All descriptors of an image belong to their keypoints | partial | Proved for every interleaving of the iterations: rows, angles, independence of the order, idempotence, lengths and unit norm (a flat neighbourhood gives a row that is not a number), contrast. Refuted: an unknown type gives rows of zeros without notice; a level that does not exist is read outside of the vector. Iterations interleave between the orientation and the descriptor, not within them (they share no other state). |
| C130 | Undistorting points of a radial-tangential lens converges | partial | Proved wherever 3\|k1\|r^2 + 5\|k2\|r^4 + 6\|(p1,p2)\|r <= 1/4 at the radius r of the point (the bound on the derivative of the distortion is proved too): error at most a quarter of the square root of the tolerance and at most 4 tol / r; tolerance reached unless it is below r^2 / 2^121; also through projection and back-projection of a pinhole camera. Refuted for stronger distortion: points come back as other points reported as converged, or the Jacobian at the start is singular. |
| C131 | Undistorting points of an equidistant lens converges from the inside | partial | Proved for every lens that compresses more and more up to the point without folding (in particular without coefficients and with non-positive ones): monotone convergence along the ray with factor 1 - slope(r)/slope(r0), final error in terms of tolerance and slope, tolerance reached within 30 iterations if factor^29 r is within it. Refuted: within 1e-3 of the centre the distorted point itself is returned; lenses that fold return another point. |
| C132 | Gaussian smoothing of the KAZE detector smooths, and keeps brightness and position | partial | cv::GaussianBlur modelled as separable correlation with the normalised sampled Gaussian and replicated border, over real numbers; refuted: for sigma in (0.35, 0.65] the automatic window is one pixel and nothing is smoothed, for sigma <= 0.35 a negative double is converted to size_t, and a given window of one pixel is used for every sigma up to 1 |
| C133 | Track lengths decide what optical flow gets | proved | Lengths are compared with the longest chain of continuations in the whole recorded history; the keypoints of the first frame count as detected. |
| C134 | Cameras of the factory and the lenses they own | partial | Ownership, independence, factory and setters proved for all histories. Refuted: the factory makes no lidars (lox_lidar_refuted); setParameters checks only the number of intrinsics (lox_valid_refuted); setDistortion accepts null, after which getters abort (lox_null_refuted); the absent lens accepts any coefficients (lox_no_lens_refuted). |
| C135 | Objects in YAML files | partial | All but four parts: serializeToFile and Save do not notice that the disk is full (yfx_full_refuted), exceptions of deserialize leave deserializeFromFile (yfx_throws_refuted), Save returns true without assertions if the file cannot be opened (yfx_save_refuted), and Save that returns false has already emptied the file (yfx_save_loses_refuted). yaml-cpp and the disk are parameters. |
| C136 | Owners of aligned memory | partial | Proved for all histories in which classes adopted by UniquePtr have Eigen's operator new, bases have virtual destructors and are at the start of the object, and constructors called by aligned_unique do not throw. Refuted otherwise: aligned_unique leaks if the constructor throws; classes without EIGEN_MAKE_ALIGNED_OPERATOR_NEW are freed by the wrong function; other bases cannot own. |
| C137 | Multi-frames hold the frames of their cameras | partial | Proved for users that give a multi-frame another rig only if its frames are in no other slot, do not change the cameras of frames and rigs in use and do not assign a multi-frame to itself. Refuted without this: self-assignment throws away all slots; a frame in two slots or two multi-frames gets the camera of the last setNCameras; a changed rig leaves the frames behind; image queries abort on empty slots. |
| C138 | Saved keypoints can be read back | partial | Text level: printing with six digits, reading back, and the whole file proved. Refuted: different positions give the same file; on a full disk the result is 1 and the file is unreadable or wrong; a keypoint of size zero is written as inf; more descriptors than keypoints are undefined behaviour. |
| C139 | Printed targets are what the detector expects | partial | Refuted: a board without spaces is printed but its description is not accepted; descriptions with more tags than codes are accepted but not printable; the default board of the script is not the default target of the detector. Everything else is proved. |
| C140 | Spread of sets of descriptors | partial | Refuted: distances of pairs are computed with unsigned char, so that none exceeds 15 and different descriptors can have distance zero; from 46342 descriptors on their number overflows; the mean absolute deviation ignores bytes behind the last multiple of 16. The statements about the mean absolute deviation hold for descriptors of 16 to 496 bytes in multiples of 16. |
| C141 | Random sensors | partial | Validity, fresh ids, the values of each class, the number and class of the cameras, the index and the poses are proved. False: the flag for compressed images of a camera and the covariance of a rig survive (rgx_compressed_refuted, rgx_covariance_refuted), and the cameras are displaced along the y axis of the body, not x (rgx_offset_refuted); rgx_not_random shows that only the id of a random camera is random, rgx_fifteen that 15 cameras have probability zero before rounding. |
| C142 | Exchanging data with a frame | partial | All but two parts are proved. False: the first swapDescriptors on a frame returns an uninitialised integer (fsx_type_refuted); a null pointer is refused only by swapTrackIds and swapDescriptors, the other seven functions dereference it (fsx_null_refuted). swapChannelData is the same code as swapTrackIds, for any type, and is not modelled separately. |
| C143 | Calls of the line segment detector | partial | Two parts are false of the code: with a tolerance close to 180 degrees, which the constructor takes, the least size of a region does not fit into an int (ldx_tolerance_refuted), and an image with several channels of doubles is not refused but searched as a wider grey image (ldx_colour_refuted). The rest is proved. |
| C144 | Printed ids and hashes of pairs of ids | partial | Refuted: ids of numbers with the same last four digits print the same (itx_unique_refuted), generated ids tell only 16 bits since the last two bytes are the top of the counter, so of 65537 ids two print the same (itx_generated_refuted); the hash of pairs does not separate exchanged pairs and is 0 for all pairs of equal ids (itx_pair_refuted). The rest is proved. |
| C145 | Erasure of columns and rows of matrices | partial | Proved for ordered lists without repetitions, for all matrices, and for all programs that do not copy adapters. Whatever returns was asked for properly. Refuted: an empty list reads the last element of an empty vector, although the code tests for it one statement later; a repeated index is written outside of the result before it is refused; a copied adapter that allocated its matrix frees it twice. Sizes below 2^31. |
| C146 | Inliers by RANSAC and lines between matches | partial | Proved over real numbers for all pairs, estimators and images; that the end of a line shows the point, for images of one size. Refuted: old inliers are kept, so a second call doubles them; a status for too few points, as OpenCV leaves it when no fundamental matrix is found, is read outside; odd lists are read outside; unknown colours draw nothing; for images of different sizes the lines are scaled but the second image is not. |
| C147 | Saved pictures of the scale space | partial | Proved for all levels with contrast, over real numbers, for the pixels that imwrite gets. Refuted: the levels in the detector are replaced by the scaled images, even if no file can be written, which nothing reports; a flat level becomes NaN. |
| C148 | Byte shuffles on ARM, and columns as vectors | proved | Proved for all registers and matrices; composition for second masks that set no byte to 0. |
| C149 | Configuration files of April grid targets | partial | Proved: complete files give exactly the described configuration; whatever is accepted is of the right type with positive numbers, each said by the file or the default; refusals; only the five keys matter. False: files that lack tagCols, tagRows or tagSize are accepted with 6, 6 and 0.088; without tagSpacing an uninitialised variable is used; infinite sizes are accepted. |
| C150 | Empty frames and multi-frames | proved | The functions are programs over the models of shared frames (NFrameModel) and of channels (FrameSwapModel); ids are parameters. |
| C151 | Single elements of the channels of a frame | partial | Proved: elements that exist are returned; whatever is returned is that element; writes through pointers; indices outside below 2^31 abort; blocks of descriptors for all indices. False: the index is converted to int before the CHECK, so exactly the indices that are in range or negative as int (2^31 .. 2^32-1, size_t -1, 2^32, ...) read outside of the data. |
| C152 | Extrinsics of camera rigs by index and by id | partial | Proved for all histories, the access by id under the hypothesis of C39 that ids of cameras in rigs are not changed and stay distinct. False without it: after setId on two cameras of a rig get_T_C_B(id) returns the transformation of the other camera. |
| C153 | Printed tables of feature tracks | partial | Proved: numbers of at most ten digits are read back from their columns; the text does not depend on the format of the stream; tables of rigs. False: longer numbers run together (two tracks, one text); a track without observations aborts; the stream keeps fixed, blank fill and precision 3. |

## Trusted base

1. The kernel of Coq 8.16.1 (and `coqchk`, which was run over the compiled files).
2. The axioms that `Print Assumptions` lists, per theorem, at the end of this file.  Most theorems are closed.  The geometric
   theorems use the real numbers of the standard library (`ClassicalDedekindReals.sig_forall_dec`, `sig_not_dec`,
   `functional_extensionality_dep`); those that go through Coquelicot or `cos_atan` also use `Classical_Prop.classic`.  No axiom of our own,
   no `Admitted`, no section-less `Variable`, no functors.
3. That the models say what the code says.  Every model definition cites the lines it was read from; the header of each model file lists
   its simplifications.  The code was never compiled or run.
4. Behaviour of libraries as described where they are used: `std::sort`, `partial_sort`, `nth_element`, `lower_bound`,
   `unordered_map`, `strtoul`, `ostream` formatting, mutexes and condition variables, Eigen's QR in exact arithmetic, OpenCV and OpenGV calls
   as inputs (oracles).  A library result about which nothing may be assumed is an argument of the model and universally quantified.

### What is modelled

| source | model |
|--------|-------|
| `aslam_cv_common/src/reader-writer-lock.cc`, `reader-first-reader-writer-lock.cc` | `RwLockModel` |
| `aslam_cv_common/src/thread-pool.cc`, `thread-pool.h` | `ThreadPoolModel` |
| `aslam_cv_pipeline/src/visual-npipeline.cc` | `NPipelineModel` (data), `NPipelineWaitModel` (blocking) |
| `aslam_cv_common/.../channel-serialization.{h,cc}` | `SerializationModel` |
| `aslam_cv_common/.../hash-id.h`, `unique-id.h`, `internal/unique-id.cc` | `HashIdModel` |
| `aslam_cv_common/.../stl-helpers{,-inl}.h` | `StlHelpersModel`, `MatEraseModel` (matrices and adapters) |
| `aslam_cv_common/.../neon-helpers.h`, `stl-helpers.h` 164-178 | `ShuffleModel` |
| `aslam_cv_calibration/src/target-aprilgrid.cc` 20-43 | `TargetYamlModel` |
| `aslam_cv_frames/src/visual-frame.cc` 555-572, `visual-nframe.cc` 221-235 | `EmptyFrameModel` |
| `aslam_cv_frames/src/visual-frame.cc` 102-106, 119-214, 236-241 | `FrameElemModel` |
| `aslam_cv_cameras/src/ncamera.cc` 45-92, 202-250, 299-316 (extrinsics, covariance) | `RigExtrModel` |
| `aslam_cv_frames/include/aslam/frames/feature-track-inl.h` 29-58 | `TrackTextModel` |
| `aslam_cv_common/.../occupancy-grid{,-inl}.h` | `OccupancyGridModel` |
| `aslam_cv_common/.../statistics/*.h`, `statistics.cc` | `StatisticsModel` |
| `aslam_cv_common/.../hamming{,-inl}.h`, `descriptor-utils.h`, bit access of `feature-descriptor-ref.h` | `DescriptorModel` |
| `aslam_cv_common/.../feature-descriptor-ref{,-inl}.h` (ownership, `FlipNRandomBits`) | `DescRefModel` |
| `aslam_cv_common/.../channel*.h`, `channel.cc` | `ChannelModel` |
| `aslam_cv_common/.../time.h` (text) | `TimeTextModel` |
| `aslam_cv_frames/src/visual-frame.cc` (keypoint channels, descriptors, erasing, clearing) | `FrameModel` |
| `aslam_cv_frames/src/visual-nframe.cc` (timestamps), `aslam_cv_cameras/src/ncamera.cc` | `RigModel` |
| `aslam_cv_frames/.../feature-track.h` (bounding box) | `TrackBoxModel` |
| `aslam_cv_tracker/src/track-manager.cc` | `TrackModel` |
| `aslam_cv_tracker/src/feature-tracker-gyro.cc` | `GyroTrackerModel` |
| `aslam_cv_matcher/src/gyro-two-frame-matcher.cc` | `GyroMatcherModel` |
| `aslam_cv_matcher/src/match-helpers.cc`, vectorized projections of `camera.cc` | `PredictModel` |
| `aslam_cv_tracker/src/tracking-helpers.cc` (insertion of keypoints) | `InsertModel` |
| `aslam_cv_common/include/aslam/common/yaml-serialization-eigen.h` | `YamlMatrixModel` |
| `aslam_cv_common/src/covariance-helpers.cc` | `CovarianceModel` |
| `aslam_cv_common/include/aslam/common/undistort-helpers.h`, factories of the mapped undistorter | `UndistortModel` |
| `aslam_cv_cameras/src/camera*.cc`, `distortion-*.cc` | `CameraModel`, `DistortionModel`, `LidarModel` |
| `aslam_cv_triangulation/src/triangulation.cc` | `TriangulationModel` |
| `aslam_cv_geometric_vision/src/match-outlier-rejection-twopt.cc` | `OutlierModel` |
| `aslam_cv_geometric_vision/src/pnp-pose-estimator.cc` (3-D RANSAC, thresholds) | `RansacModel` |
| `aslam_cv_calibration/src/target-*.cc`, `target-observation.h`, circle functions of `helpers.h` | `AprilGridModel`, `CircleModel` |
| `aslam_cv_calibration/src/focallength-initializers.cc` (absolute conic) | `FocalModel` |
| `aslam_cv_common/src/sensor.cc`, `yaml-serialization.h`, `camera.cc`, `camera-factory.cc`, `ncamera.cc` (documents) | `SensorYamlModel` |
| `aslam_cv_detector/src/kaze/fed.cpp` | `FedModel` (reordering), `FedTimeModel` (times, rates, levels) |
| `aslam_cv_detector/src/kaze/nldiffusion_functions.cpp` (conductivity, explicit step, contrast factor, maxima) | `DiffusionModel`, `ContrastModel`, `ExtremaModel` |
| `aslam_cv_detector/src/kaze/KAZE.cpp` (AOS step, extrema and refinement, orientation, descriptors) | `AosModel`, `ExtremaModel`, `OrientModel`, `SurfModel` |
| `aslam_cv_detector/src/kaze/nldiffusion_functions.cpp` (Scharr kernels), `KAZE.cpp` (multiscale derivatives, response) | `KDerivModel` |
| `aslam_cv_detector/src/kaze/utils.cpp` (except the help text, draw_keypoints, display_text, and the internals of the RANSAC and drawing calls) | `KUtilModel`, `KInlierModel` |
| `aslam_cv_common/.../numdiff-jacobian-tester.h` | `NumDiffModel` |
| `aslam_cv_common/.../opencv-predicates.h` | `ImageEqModel` |
| `aslam_cv_cameras/src/camera.cc`, `camera.h` (masks; rolling shutter), `camera-3d-lidar.h` | `MaskModel`, `ShutterModel` |
| equality in `sensor.cc`, `camera.cc`, `ncamera.cc`, `visual-frame.cc`, `visual-nframe.cc`, `predicates.h` | `EqualModel` |
| `aslam_cv_pipeline/src/visual-pipeline*.cc` (single frames, BRISK, FREAK) | `VPipeModel` |
| `aslam_cv_cameras/src/random-camera-generator.cc` | `TestRigModel` |
| `aslam_cv_calibration/src/focallength-initializers.cc` (vanishing points) | `VanishModel` |
| `aslam_cv_frames/.../keypoint-identifier.h`, `feature-track.h`, `feature-track-inl.h` | `KTrackModel` |
| `aslam_cv_detector/src/lsd/lsd-opencv.cc`, `line-segment-detector.cc` | `LsdOrderModel`, `LsdRegionModel`, `LsdFilterModel`, `LsdNfaModel`, `LsdImproveModel`, `LCompareModel` |
| `aslam_cv_common/.../eigen-hash.h` | `EHashModel` |
| `aslam_cv_geometric_vision/src/pnp-pose-estimator.cc` (2-D variants), `aslam_cv_calibration/src/target-algorithms.cc` | `PnpModel` |
| `aslam_cv_cameras/src/camera-*.cc` (random keypoints and points, parameters), `camera.h`, `distortion.cc` (parameters) | `RandPtModel` |
| `aslam_cv_common/src/timer.cc` (texts: `SecondsToTimeString`, `Print`, `WriteToYamlFile`) | `ClockTextModel` |
| `aslam_cv_detector/src/kaze/KAZE.cpp` 99-193 (scale space, contrast) | `ScaleSpaceModel` |
| `aslam_cv_detector/src/kaze/KAZE.cpp` 498-642 (all descriptors of an image) | `KDescModel` |
| `aslam_cv_detector/src/kaze/KAZE.cpp` 2293-2317 (saved pictures) | `KSaveModel` |
| `aslam_cv_detector/src/kaze/nldiffusion_functions.cpp` 31-49 (Gaussian smoothing) | `KSmoothModel` |
| `aslam_cv_cameras/src/distortion-{radtan,equidistant}.cc` (undistort loops; convergence) | `DistortionModel` with `RadTanInv*`, `EquiInv*` |
| `aslam_cv_frames/src/visual-frame.cc` (raw coordinates), `camera-*.cc` (`getBorderRays`), `camera.cc` (`project4`) | `RawCoordModel` |
| `aslam_cv_frames/src/visual-frame.cc` (descriptors as text, queries by type) | `DescTextModel` |
| `aslam_cv_visualization/src/basic-visualization.cc` | `DrawModel` |
| `aslam_cv_frames/src/visual-nframe.cc`, `visual-nframe.h` | `NFrameModel` |
| `aslam_cv_detector/src/kaze/KAZE.cpp`/`utils.cpp` (files of keypoints) | `KFileModel` |
| `aslam_cv_calibration/python/create-target-pdf.py` | `TargetPdfTags`, `TargetPdfModel` |
| `aslam_cv_common/.../descriptor-utils.h` 115-213 (spread) | `SpreadModel` |
| `setRandom` of `sensor.cc`, `camera-*.cc`, `ncamera.cc` | `RandomSensorModel` |
| `aslam_cv_frames/src/visual-frame.cc` (swap and set functions) | `FrameSwapModel` |
| `aslam_cv_common/include/aslam/common/unique-id.h`, `hash-id.h` (texts, containers, hash of pairs) | `IdTextModel` |
| `aslam_cv_detector/src/lsd/lsd-opencv.cc` (constructor, detect, levels; blur and resize are a parameter) | `LsdDetectModel` |


### What is not modelled

* Rounding of floating-point arithmetic.  Theorems over `R`, `Q` or `Z` say nothing about rounding errors; overflow and
  NaN are mentioned where a branch of the code depends on them.
* Memory management (shared pointers, alignment), logging, exceptions of allocation.
* Weak memory: threads interleave at the granularity given in the model headers.
* OpenCV/OpenGV internals (feature extraction, optical flow, PnP solvers), blurring and resizing before the line segment
  detector, how marks are drawn into pixels, printing of parameters.

## Faults of the code found on the way

Each item is the content of a `..._refuted` theorem unless marked (read only), which means it was noticed while reading and is not part of a
model.

* Locks and threads: `isInUse` of the reader-first lock ignores waiting threads (C05); the notification of `enqueue` can be consumed by
  `waitForEmptyQueue`, leaving a task asleep (C10); a task inserted while `stop()` runs is lost (C11); the group check in the
  thread pool compares with `CHECK_LE`, off by one (read only); shutdown of the pipeline sets its flag without the mutex and can leave a
  getter asleep (C16); comparing two channel groups in opposite orders deadlocks (C34).
* Pipeline: camera index equal to the number of cameras passes the check (C12); output out of time order after a late image, and a
  complete front group is not delivered after `getLatestAndClear` (C14); the drop heuristic removes complete groups, in three ways (C15).
* Serialization: `2^32+1` rows are silently truncated (C17); `4294967295 x 0` is accepted but cannot be written again (C18); truncated
  buffers are read out of bounds, trailing garbage is accepted (C19); 513 channels overflow, 0 channels give uninitialised
  pixels (C20); unsigned values from 2^63 throw and floats lose digits below 1e-6 (C59); `"0x"`, `"-1"`, `"1g"` are accepted as hex bytes
  (C60).
* YAML: the length check for one-element sequences is inverted, so a column written as rows aborts and longer rows are truncated (C86);
  an empty matrix cannot be written (C85).
* Containers and statistics: erasing an empty index list from a matrix calls `back()` on it, an unsorted list aborts (C27); int counters
  overflow at sample 2^31, rolling mean of nothing is 0/0 (C29); a collector created before `Reset` feeds the old accumulator (C30);
  thinning the grid aborts when fewer points than occupied cells are requested (C64); the grid constructor accepts non-positive cell sizes
  (read only).
* Descriptors: 512-byte descriptors have distance 0 to their complement, bytes after the last multiple of 16 are ignored, short
  descriptors are read out of bounds (C31); the median descriptor is not the one closest to the rounded mean (C32); the copy
  constructor of `FeatureDescriptorRef` reads its uninitialised `owned_`, `Release` keeps the size, `set_data` leaks an owned buffer, views on an owner
  dangle (C80); `FlipNRandomBits` refuses to flip all bits (C81).
* Channels and frames: clones share pixels, assignment aliases all channels without locking, comparing differently typed channels aborts
  or answers depending on hash order (C33); erasing keypoints forgets 3-D positions and time offsets, and aborts with several descriptor blocks
  (C36); a second descriptor block of the same type is invisible (C37); the minimum timestamp of a frame-less n-frame is INT64_MAX (C38);
  only block 0 of the descriptors is cleared (C66); index checks with `CHECK_LE` (C67); `operator==` of n-frames dereferences unset
  frames (read only).
* Rigs: `cloneRigWithoutDistortion` leaves a stale id map, exchanging two cameras through `setCamera` loses one, `setId` from outside makes
  the map stale (C39).
* Tracks: ids are reissued after `resetIdProvider` and wrap to negative after 2^31 tracks (C40); the bounding box of negative coordinates
  starts at the smallest positive double (C54); a border wider than the image wraps around (C68).
* Matching: a static variable remembers the first descriptor size (C42, C70); the ratio test depends on the order of candidates (C43); the last
  image row is never returned (C44); complementary descriptors abort (C70); predicting the keypoints of an empty frame leaves
  old ones in the output, the early exit for the identity does not return (C82); bearing vectors of matches ignore failed back-projections (C83); additional keypoints
  are inserted without comparing descriptor sizes, so a cleared frame is written out of bounds (C84).
* Cameras: unified camera with xi > 1 on the edge of the liftable region (C46); equidistant Jacobian zero at the centre, fisheye parameter
  Jacobian without factors in the inner disc, fisheye `undistort` wrong beyond 89 degrees (C47); status of homogeneous projection depends on scale and
  its Jacobian has the wrong sign for negative fourth coordinate (C48); unified `project3` leaves the point Jacobian unwritten for invalid
  projections (read only); lidar with centre pi or more (C56), lidar rolling-shutter delay uses the height (C56), lidar ignores
  external intrinsics (C73); the camera factory and the stream operator have no lidar case (read only).
* Undistortion: the sampling grid ends one pixel outside of the image, more than 180 degrees give negative focal lengths, matrix and camera can
  disagree about the width (C87); fixed-point positions wrap at 16 bits, rays to the back are mirrored (C88).
* Triangulation: rank minus number of views wraps around, parallel rays can be "successful"; a track is triangulated with the extrinsics of
  its first camera; the fast variant never advances its column index; the Gauss-Newton variant uses the wrong anchor and never reports
  unobservable points (C49).
* Calibration: no lower bound on tag ids (C50); nearly touching circles give one point off both, equal circles give NaN (C51);
  `getObservedCornerById` aborts for ids not smaller than the number of observed corners (C74); `pointToGridCoordinates` returns (column, row)
  (C75); the absolute conic returns true with infinite focal lengths for frontal views, and uses uninitialised rows for incomplete views (C108).
* Documents of sensors: a mask stays although the image size changes (C90); reading into a rig with cameras appends, an empty rig cannot be read
  back (C91); malformed ids, transformations and covariances abort or throw instead of being refused, a camera takes the type of another class,
  refused documents leave half-modified objects, duplicate ids are accepted, a distortion none without parameters is refused (C92).
* KAZE: the contrast factor is zero for flat images and images with few edges, and its float counters stop at 2^24 pixels (C94); twelve sublevels
  give a single step whose reordering is undefined, very short cycles have no step (C95); the implicit step writes out of bounds or throws for
  every image that is not square (C96); keypoints of adjacent levels stay nearer than their scale, the border check is overwritten, keypoints already in the vector
  stay (C97); gradients of angle exactly 0 are in no window (C98); descriptors of flat patches are NaN, interpolation extrapolates near the border, the rotated M-SURF
  descriptor does not interpolate, M-SURF weights are off centre (C99).
* Line segments: seeds are taken row by row although a list ordered by gradient was built (C100); `isAligned` is wrong for tolerances from 90 degrees
  (C101); the rectangle need not cover its region, ends can lie outside of the image (C102); a small angle threshold throws for regions of one
  pixel (C103); filters look only at the first row of a one-column matrix, intersections are truncated to whole pixels, degenerate segments
  are called parallel, horizontal lines have angle 0 only (C105); the number of false alarms uses n + 1 in place of log_gamma(n + 1) (C106); counting looks at one
  column of an axis-aligned rectangle, steps are quotients of ints and one uses x for y (C107).
* Tests and comparisons: the step of the Jacobian tester is the square of a relative step (C109); comparing images of several channels looks only at the first
  columns + channels - 1 scalars of a row, its tolerance is relative for floats and ignored for integers, images of doubles are never equal (C116); equality of cameras is not
  transitive and ignores masks, multi-frames with null frames abort when compared (C112).
* Masks and shutters: changing the image size keeps a mask of the old size, which is then read out of bounds; the mask is shared with the caller; NaN keypoints (C110); the
  largest delay of a lidar is computed from rows, is one line too long, and delays wrap around (C111).
* Pipelines and rigs: the FREAK pipeline frees its detector in its constructor (C113); the cameras of the surround view rig are not where they are said to be, the test rig is displaced
  along y (C114); straight rows or rows on one circle give NaN focal lengths and `true` (C115).
* KAZE, continued: derivatives vanish at the border and the response there is not symmetric in rows and columns, scales from 500 overflow a buffer (C117); scaling of flat or bright
  images, matches with one candidate, side by side images of different sizes, incomplete homography files (C118).
* Identifiers: keypoints and frames can be replaced under a keypoint identifier, popping an empty track is undefined, ids from 2^31 cannot be continued, lists with an empty track cannot be
  printed (C119); segments in a one-column matrix are compared by the first only, showing a comparison without image always throws (C120); cells of a grid collide in the hash of
  matrices, matrices of different sizes are compared (C121).
- `pnp-pose-estimator.cc`: the single-camera estimator ignores `run_nonlinear_refinement` (so `estimateTargetTransformation` never refines), the results of `backProject3` are ignored, the inliers
  and distances of the rig estimator belong to the pose before the refinement (C122).
- Random points: negative depths abort against the documentation; the unified camera returns its centre for `xi = 1`, even outside of the image, ignores its twentieth draw and scales by
  `1 / (xi^2 - 1)` instead of its square root; `Camera::setParameters` does not check values; the default lidar has three parameters (C123).
- Timing report: the end of a minute prints as sixty seconds, negative durations print no clock text, tags that differ in colon and hash share a YAML key, `WriteToYamlFile` leaves
  the old file after `Reset` (C124).  (Read only) it walks the tag map without the mutex.
- KAZE scale space: an unsupported diffusivity is only printed and disables the diffusion; a flat image divides by a contrast of zero; both return success; explicit cycles can leave the range of the image (C125).
- Raw coordinates: conversion of a keypoint without a ray leaves the output in one function and writes it in the other; a frame without raw camera uses a null pointer; indices from 2^31 pass the check; border rays
  and homogeneous Jacobians of unified cameras may be invalid or uninitialised (C126).
- Descriptor text: restored descriptors have no types or the old types; counting keypoints of a type aborts without descriptors (C127).
- Pictures: `drawKeypoints` leaves the old picture when there is nothing to draw; negative match indices are read (C128).
- Descriptors of an image: an unknown descriptor type leaves the rows zero; the level of a keypoint is read unchecked (C129).
- Undistorting: points beyond the fold of a radial-tangential lens come back as other points, a singular lens divides by zero (C130); near the centre of an equidistant lens the distorted point itself comes back, and folding lenses as for C130 (C131).
- Smoothing: for sigma in (0.35, 0.65] the automatic window is one pixel, below a negative number becomes a size; a given window of one pixel does not smooth (C132).
- Multi-frames: assigning one to itself throws away its frames; a frame in two slots gets the camera of the last `setNCameras`; image queries abort on empty slots (C137).
- Keypoint files: positions lose digits, a full disk is reported as success, a keypoint of size zero is written as `inf`, more descriptors than keypoints are read out of bounds (C138).
- Printed targets: a board without spaces is printed but refused by the detector, more tags than codes the reverse; the defaults of script and detector differ (C139).
- Spread of descriptors: distances of pairs are computed in `unsigned char`; their number overflows from 46342 descriptors on; the absolute deviation ignores bytes behind the last multiple of 16 (C140).
- `setRandom` keeps the compression flag of a camera and the covariance of a rig; the cameras of a random rig are displaced along y, not x (C141).
- The first `swapDescriptors` returns an uninitialised integer; seven swap functions dereference a null pointer (C142).
- The line segment detector takes tolerances for which its least region size overflows an int, and does not refuse colour images of doubles (C143).
- Printed ids are ambiguous (the last bytes are the top of a counter); the hash of pairs of ids is symmetric and 0 for equal ids (C144).
- Erasing no columns reads the last element of an empty vector, a repeated index is written outside of the result before the order is checked, and copied adapters free twice (C145).
- `compute_inliers_ransac` does not clear its result and reads a missing status; `draw_inliers` resizes the second image but copies the original one (C146).
- Saving pictures of the KAZE scale space overwrites the scale space with the scaled images (C147).
- A configuration file of an April grid that lacks tagCols, tagRows or tagSize is accepted with the defaults; without tagSpacing an uninitialised double is used (C149).
- The getters of single elements of VisualFrame convert the index to int before the CHECK: indices such as the size_t -1 read outside of the data (C151).
- After ids of cameras in a rig are changed by setId, get_T_C_B(id) returns the transformation of another camera (C152).
- Printing a list of feature tracks aborts if one has no observations, and leaves the stream with another format (C153).
* Others: FED reordering reads `tauh[-1]` for one step (C52); 3-D RANSAC (C53, C79); times from -999999999 to -100000000 ns print wrongly
  (C55); two-point outlier rejection does not clear its output lists, and one of its size checks compares a list with itself (C57).


## Mutation tests

`seeded/LOG.jsonl` has one line per wrong program tried: the definition edited, the edit, the claim it should break, the theorems that no longer
compile, and the theorems tightened as a consequence.  The edits are applied to a scratch copy; the files of the component are recompiled, a failing proof being replaced by an admission so that later failures are seen too.  A theorem is counted as failed if its own proof or that of a lemma it
depends on breaks.  This alone does not prove the claim false (a proof script may break for a harmless reason); the control edits in the log, which
do not change the meaning, show how often that happens.  What the log does show is the other direction: a theorem that survives an edit which
makes its claim false is too weak.  Edits marked "refutation no longer true (fix)" repair a fault; the corresponding `..._refuted` theorem has to fail.

## Assumptions per theorem

Output of `Print Assumptions` for every theorem named in `MANIFEST.json`, grouped. The axioms are those of the Coq standard library (`Reals`, `Classical_Prop`, `FunctionalExtensionality`) only.

### Closed under the global context (no axioms)

* `AlignedPtrProps`: `apx_safe`, `apx_all_returned`, `apx_drop`, `apx_moved`, `apx_empty`, `apx_throw_refuted`, `apx_plain_new_refuted`, `apx_base_refuted`
* `AprilGridProps`: `ex_observed`, `ex_corner_by_id_partial`, `ex_all_observed`, `ex_grid_roundtrip`, `ex_index_roundtrip`, `ex_grid_order_abort_refuted`
* `ChannelProps`: `cx_refines_partial`, `cx_clone_equal`, `cx_equal_answer`, `cx_clone_shares_pixels_refuted`, `cx_assign_aliases_refuted`, `cx_equal_order_refuted`, `cx_compare_deadlock_refuted`, `cx_ordered_no_deadlock_partial`, `cx_mutual_exclusion`
* `ClockTextProps`: `tsx_clock`, `tsx_below_sixty`, `tsx_sixty_refuted`, `tsx_order`, `tsx_order_refuted`, `tsx_defined`, `tsx_length`, `tsx_signed`, `tsx_negative_refuted`, `tsx_columns`, `tsx_sorted`, `tsx_columns_refuted`, `tsx_query_refuted`, `tsx_yaml`, `tsx_yaml_plain`, `tsx_yaml_only`, `tsx_yaml_refuted`, `tsx_stale_refuted`
* `DescRefProps`: `drx_safe_partial`, `drx_copy`, `drx_assign`, `drx_independent`, `drx_write`, `drx_copy_uninitialised_refuted`, `drx_release_refuted`, `drx_equal_null`, `drx_release`, `drx_set_data_leak_refuted`, `drx_alias_refuted`, `drx_assign_empty_not_equal_refuted`, `fnx_flip_random`, `fnx_flip_everything_refuted`
* `DescTextProps`: `dsx_queries`, `dsx_absent`, `dsx_change`, `dsx_roundtrip`, `dsx_settled`, `dsx_types_refuted`, `dsx_unset_refuted`
* `DescriptorProps`: `dx_sse_distance_exact_partial`, `dx_neon_distance_exact_partial`, `dx_sse_agrees_with_neon_partial`, `dx_sse_distance_wraps_refuted`, `dx_distance_ignores_tail_refuted`, `dx_short_descriptor_out_of_bounds_refuted`, `dx_mean_majority`, `dx_mean_minimises_distance`, `dx_median_minimises_distance`, `dx_median_not_closest_to_mean_refuted`, `dx_bit_access`
* `EHashProps`: `ehx_range`, `ehx_equal`, `ehx_last`, `ehx_collision_refuted`, `ehx_shape_refuted`, `ehx_table`, `ehx_nan`, `ehx_mixed_refuted`
* `EmptyFrameProps`: `efx_created`, `efx_complete`, `efx_none`, `efx_apart`, `efx_channels`
* `EqualProps`: `eqx_without_system`
* `ExtremaProps`: `xtx_sound`, `xtx_complete`, `xtx_separate_refuted`, `xtx_border_refuted`, `xtx_stale_refuted`
* `FedProps`: `fx_prime_test_exact`, `fx_next_prime`, `fx_reorder_permutation`, `fx_reorder_permutation_partial`, `fx_reorder_single_refuted`, `fx_reorder_single`
* `FrameElemProps`: `fex_inside`, `fex_value`, `fex_outside`, `fex_wrapped`, `fex_minus_one`, `fex_range_refuted`, `fex_blocks`, `fex_write`, `fex_set`
* `FrameProps`: `vx_extend`, `vx_extend_keypoints`, `vx_extend_descriptors`, `vx_history_prefix`, `vx_batch_aligned`, `vx_discard_partial`, `vx_keep`, `vx_discard_positions_refuted`, `vx_discard_blocks_refuted`, `vx_block_lookup`, `vx_descriptors`, `vx_num_descriptors`, `vx_type_range`, `vx_cell_of_type`, `vx_types_partition`, `vx_num_of_type`, `vx_duplicate_type_refuted`, `vx_clear_partial`, `vx_clear_refuted`, `vx_select_partial`, `vx_select_past_end`, `vx_select_refuted`
* `FrameSwapProps`: `fsx_exchange`, `fsx_copy`, `fsx_twice`, `fsx_null_refuted`, `fsx_block`, `fsx_blocks`, `fsx_first`, `fsx_type_refuted`, `fsx_paired`, `fsx_defined`, `fsx_conserve`
* `GyroLenProps`: `glx_lengths`, `glx_candidates`
* `GyroMatcherProps`: `mx_one_to_one`, `mx_threshold_partial`, `mx_threshold_refuted`, `mx_first_call`, `mx_decision_order_partial`, `mx_decision_order_refuted`, `mx_window_rows_partial`, `mx_window_defined`, `mx_last_row_refuted`, `mx_no_abort_partial`, `mx_complement_abort_refuted`, `mx_sizes_abort_refuted`, `mx_best_kept`, `mx_distinctive`
* `GyroTrackerProps`: `yx_candidates`, `yx_candidates_total`, `yx_flow_matches_partial`, `yx_border_refuted`, `yx_history`
* `HashIdProps`: `hx_roundtrip`, `hx_injective`, `hx_parse`, `hx_from_int`, `hx_generated_unique`, `hx_garbage_refuted`, `hx_garbage_partial`, `hx_accepts`, `hx_order`, `hx_words`
* `IdTextProps`: `itx_text`, `itx_short`, `itx_int`, `itx_unique_refuted`, `itx_generated`, `itx_generated_refuted`, `itx_container`, `itx_hash`, `itx_int_hash`, `itx_basis`, `itx_pair`, `itx_pair_refuted`
* `InsertProps`: `inx_additional_partial`, `inx_empty`, `inx_empty_refuses`, `inx_refuses`, `inx_additional_twice`, `inx_cleared_refuted`, `inx_descriptor_size_refuted`, `inx_two_blocks_refuted`
* `KDescProps`: `kdx_types`
* `KFileProps`: `kwx_number`, `kwx_error`, `kwx_exact`, `kwx_file`, `kwx_lines`, `kwx_defined`, `kwx_result`, `kwx_unmatched`, `kwx_position_refuted`, `kwx_full_refuted`, `kwx_truncated_refuted`, `kwx_size_refuted`
* `KInlierProps`: `kix_ransac`, `kix_status_refuted`
* `KSaveProps`: `ksx_names`, `ksx_digits`
* `KTrackProps`: `kfx_create`, `kfx_create_defined`, `kfx_access`, `kfx_stable`, `kfx_replaced_refuted`, `kfx_rig_refuted`, `kfx_add`, `kfx_ends`, `kfx_pop_refuted`, `kfx_order`, `kfx_same_length_refuted`, `kfx_continue`, `kfx_continued_order`, `kfx_continue_refuted`, `kfx_print`, `kfx_print_refuted`, `kfx_print_one`
* `KUtilProps`: `kux_compose`, `kux_compose_refuted`
* `LCompareProps`: `lcx_number`, `lcx_metric`, `lcx_set`, `lcx_image`, `lcx_column_refuted`, `lcx_show_refuted`, `lcx_show`, `lcx_region_refuted`, `lcx_draw`, `lcx_draw_throws`, `lcx_index`, `lcx_index_refuted`
* `LsdImproveProps`: `lix_rows_below`, `lix_rows`
* `MaskProps`: `mkx_write`
* `MatEraseProps`: `odx_erase`, `odx_proper`, `odx_checked_refuted`, `odx_transpose`, `odx_commute`, `odx_adapter`, `odx_memory`, `odx_copy_refuted`
* `NFrameProps`: `nfx_sound`, `nfx_consistent`, `nfx_new`, `nfx_copy`, `nfx_assign`, `nfx_independent`, `nfx_set_frame`, `nfx_unset_frame`, `nfx_all_set`, `nfx_index`, `nfx_set_ncameras`, `nfx_images`, `nfx_release`, `nfx_self_assign_refuted`, `nfx_twice_refuted`, `nfx_shared_refuted`, `nfx_edit_rig_refuted`, `nfx_images_refuted`
* `NPipelineProps`: `np_synchronised`, `np_pairwise_close`, `np_delivered_once`, `np_no_failure`, `np_camera_check_refuted`, `np_nearest_group`, `np_right_group_unique`, `np_next_is_oldest`, `np_latest_is_newest`, `np_held_back_only_by_older`, `np_increasing_partial`, `np_increasing_refuted`, `np_front_complete_not_delivered_refuted`, `np_complete_dropped_refuted`, `np_complete_shadowed_refuted`, `np_oldest_complete_dropped_refuted`, `np_images_conserved`, `np_drop_two_newer`, `np_complete_dropped_behind_incomplete_partial`, `np_no_shadow_partial`, `np_completed_delivered`
* `NPipelineWaitProps`: `nw_shutdown_hang_refuted`, `nw_shutdown_hang_producer_refuted`, `nw_shutdown_releases_partial`, `nw_no_lost_wakeup`, `nw_false_means_shutdown`
* `OccupancyGridProps`: `gx_accounting`, `gx_add`, `gx_min_distance`, `gx_near_exact`, `gx_strongest`, `gx_overfull`, `gx_until_partial`, `gx_until_aborts`, `gx_until_refuted`
* `OutlierProps`: `ox_partition_partial`, `ox_nothing_lost`, `ox_nonempty_output_aborts`, `ox_partition_refuted`
* `RandPtProps`: `rpx_set`
* `RawCoordProps`: `rcx_index`, `rcx_index_checked`, `rcx_index_refuted`
* `RigExtrProps`: `rex_defined`, `rex_each`, `rex_by_id`, `rex_set`, `rex_copy`, `rex_keep`, `rex_covariance`, `rex_construct`, `rex_id_refuted`
* `RigProps`: `qx_max_timestamp`, `qx_max_without_frames`, `qx_min_timestamp_partial`, `qx_min_without_frames_refuted`, `qx_min_invalid`, `qx_all_set`, `qx_camera_index_partial`, `qx_undistorted_index_refuted`, `qx_swap_refuted`, `qx_set_id_refuted`, `qx_clone_ids`
* `RwLockProps`: `rwlock_exclusion`, `rwlock_trace_accepted`, `rwlock_counters_in_range`, `rwlock_readerfirst_exclusion`, `rwlock_readerfirst_trace_accepted`, `rwlock_upgrade_atomic`, `rwlock_upgrade_refused`, `rwlock_no_deadlock`, `rwlock_no_deadlock_unheld`, `rwlock_no_lost_wakeup`, `rwlock_drains`, `rwlock_is_in_use`, `rwlock_readerfirst_is_in_use_refuted`, `rwlock_readerfirst_is_in_use_partial`
* `ScaleSpaceProps`: `ssx_empty`
* `SensorYamlProps`: `sgx_camera_round_trip`, `sgx_mask_refuted`, `sgx_rig_round_trip`, `sgx_rig_again_refuted`, `sgx_rig_empty_refuted`, `sgx_camera_sound`, `sgx_create_sound`, `sgx_camera_returns`, `sgx_rig_sound`, `sgx_bad_id_refuted`, `sgx_class_refuted`, `sgx_refusal_changes_refuted`, `sgx_none_refuted`, `sgx_rig_refusal_refuted`, `sgx_twins_refuted`, `sgx_rig_abort_refuted`
* `SerializationProps`: `sr_matrix_roundtrip`, `sr_matrix_huge_refuted`, `sr_matrix_malformed`, `sr_matrix_reserialize_partial`, `sr_matrix_reserialize_refuted`, `sr_vector_roundtrip`, `sr_vector_accepted_partial`, `sr_vector_truncated_refuted`, `sr_vector_garbage_accepted`, `sr_image_roundtrip`, `sr_image_pixels_refuted`, `sr_image_malformed_partial`, `sr_image_overflow_refuted`, `sr_int_roundtrip_partial`, `sr_uint64_throws`, `sr_uint64_refuted`, `sr_float_close_partial`, `sr_float_refuted`, `sr_scalar_buffer_roundtrip`
* `ShuffleProps`: `sfx_shuffle`, `sfx_compose`, `sfx_popcount`, `sfx_columns`
* `SpreadProps`: `spx_pairs`, `spx_pairs_refuted`, `spx_many_refuted`
* `StatisticsProps`: `ax_accumulator_exact_partial`, `ax_accumulator_fails_iff`, `ax_accumulator_overflow_refuted`, `ax_rolling_mean_empty_refuted`, `rx_handles_iff`, `rx_statistics_of_own_samples`, `rx_sample_isolated`, `rx_reset_starts_afresh`, `rx_get_tag`, `rx_stale_collector_refuted`, `tx_timer_contributes_its_laps`
* `StlHelpersProps`: `sx_erase_vector`, `sx_without`, `sx_erase_vector_bad`, `sx_erase_container`, `sx_erase_container_bad`, `sx_erase_container_refuted`, `sx_median`, `sx_median_unique`, `sx_mean`, `sx_count`, `sx_keep_n`, `sx_draw_n`
* `TargetPdfProps`: `tpx_codes`, `tpx_sizes`, `tpx_decode`, `tpx_fits`
* `TargetYamlProps`: `tyx_read`, `tyx_accepted`, `tyx_refused`, `tyx_keys`, `tyx_default`, `tyx_spacing`, `tyx_infinite`, `tyx_default_refuted`, `tyx_spacing_refuted`, `tyx_infinite_refuted`, `tyx_spacing_positive`
* `ThreadPoolProps`: `tp_group_exclusion`, `tp_no_check_failure`, `tp_group_start_order`, `tp_group_finish_order`, `tp_at_most_once`, `tp_all_executed`, `tp_wait_means_idle`, `tp_oversleep_refuted`, `tp_no_oversleep_partial`, `tp_calm_single_client`, `tp_calm_no_wait`, `tp_drains_partial`, `tp_waiter_notified`, `tp_valid_future_refuted`
* `TimeTextProps`: `wx_text_reads_back_partial`, `wx_text_reads_back_refuted`, `wx_text_gap`, `wx_text_lenient`, `wx_text_injective`
* `TrackBoxProps`: `bx_diagonal_partial`, `bx_diagonal_refuted`, `bx_diagonal_negative`, `bx_empty`
* `TrackProps`: `kx_matches_partial`, `kx_succeeds`, `kx_new_ids`, `kx_tracks_partial`, `kx_reset_refuted`, `kx_overflow_refuted`, `kx_wrap_refuted`
* `TrackTextProps`: `ttx_printed`, `ttx_read`, `ttx_format`, `ttx_rig`, `ttx_rig_cons`, `ttx_columns_refuted`, `ttx_empty_refuted`, `ttx_stream_refuted`
* `UndistortProps`: `udx_float_size_refuted`
* `YamlCameraProps`: `yfx_camera`
* `YamlFileProps`: `yfx_write`, `yfx_abort`, `yfx_read`, `yfx_round_trip`, `yfx_save`, `yfx_save_stream`, `yfx_load`, `yfx_save_load`, `yfx_untouched`, `yfx_last`, `yfx_history`, `yfx_full_refuted`, `yfx_throws_refuted`, `yfx_save_refuted`, `yfx_save_loses_refuted`
* `YamlMatrixProps`: `ymx_round_trip`, `ymx_empty_refuted`, `ymx_accepts_partial`, `ymx_sound_partial`, `ymx_wrong_size`, `ymx_too_large`, `ymx_wrong_length`, `ymx_column_refuted`, `ymx_long_rows_refuted`, `ymx_data_ignored_refuted`

### `ClassicalDedekindReals.sig_forall_dec`

* `DescTextProps`: `dsx_stale_refuted`
* `RandPtProps`: `rpx_default_refuted`
* `RawCoordProps`: `rcx_many`

### `ClassicalDedekindReals.sig_forall_dec`, `FunctionalExtensionality.functional_extensionality_dep`

* `AosProps`: `aox_step`, `aox_unique`, `aox_conserves`, `aox_range`, `aox_wide_refuted`, `aox_tall_refuted`
* `AprilGridProps`: `ex_corner_position`, `ex_corner_disjoint`, `ex_corner_cover`, `ex_detection`, `ex_correspondence`, `ex_negative_id`, `ex_corner_by_id_refuted`, `ex_grid_order_refuted`, `ex_extent`
* `CameraProps`: `px_project_back_projection`, `px_back_project_projection`, `px_status`, `px_least_depth`, `px_finite`, `zx_pinhole_invariant`, `zx_pinhole_status_partial`, `zx_status_refuted`, `zx_jacobian_partial`, `zx_jacobian_negated`, `zx_back_project4`
* `ContrastProps`: `kpx_percentile`, `kpx_above`, `kpx_flat_refuted`, `kpx_few_edges_refuted`, `kpx_no_bins_refuted`, `kpx_large_refuted`
* `CovarianceProps`: `cvx_frame_independent`, `cvx_covariance`, `cvx_total_variance`, `cvx_compose`, `cvx_inverse`
* `DiffusionProps`: `nlx_divergence`, `nlx_conserves`, `nlx_bounded`, `nlx_range`, `nlx_limit`
* `DistortionProps`: `lx_newton_step`, `lx_radtan_undistort_partial`, `lx_radtan_zero`, `lx_radtan_centre`
* `DrawProps`: `drx_keypoints`, `drx_matches`, `drx_far_refuted`, `drx_stale_refuted`, `drx_negative_refuted`, `drx_missing_refuted`, `drx_nearest_refuted`
* `FedTimeProps`: `ftx_conserves`, `ftx_rates`, `ftx_stable`
* `ImageEqProps`: `imx_whole`, `imx_float`, `imx_default`, `imx_double`, `imx_unit`, `imx_sym`, `imx_equal`, `imx_finite`, `imx_channels_refuted`, `imx_absolute_refuted`, `imx_double_refuted`
* `KDerivProps`: `kdx_gradient`, `kdx_hessian`, `kdx_contrast`, `kdx_mirror`, `kdx_transpose`, `kdx_border_refuted`, `kdx_transpose_refuted`, `kdx_scale_refuted`
* `KInlierProps`: `kix_odd_refuted`, `kix_lines`, `kix_colour_refuted`, `kix_left`, `kix_right`, `kix_shows`, `kix_resolution_refuted`
* `KSaveProps`: `ksx_files`, `ksx_responses`, `ksx_twice`, `ksx_state_refuted`, `ksx_missing_refuted`, `ksx_flat_refuted`
* `KUtilProps`: `kux_scale`, `kux_range`, `kux_flat_refuted`, `kux_bright_refuted`, `kux_nndr`, `kux_single_refuted`, `kux_homography`, `kux_short_refuted`
* `LensOwnProps`: `lox_owned`, `lox_defined`, `lox_dangling`, `lox_create`, `lox_plain`, `lox_moved`, `lox_clone`, `lox_independent`, `lox_setters`, `lox_lens`, `lox_valid_partial`, `lox_lidar_refuted`, `lox_valid_refuted`, `lox_null_refuted`, `lox_no_lens_refuted`
* `LidarProps`: `nx_max_delay_rows`, `nx_max_delay_columns`, `nx_max_delay_lidar_refuted`
* `LsdDetectProps`: `ldx_construct`
* `LsdFilterProps`: `lax_meet`, `lax_meet_refuted`, `lax_point`
* `LsdImproveProps`: `lix_inside`, `lix_axis`
* `MaskProps`: `mkx_meaning`, `mkx_without`, `mkx_safe`, `mkx_clone`, `mkx_resize_refuted`, `mkx_alias_refuted`, `mkx_nan_refuted`
* `PredictProps`: `prx_predict`, `prx_empty_refuted`, `prx_identity`, `prx_identity_all_succeed_refuted`, `prx_compose`, `prx_inverse`
* `RadTanInvProps`: `rix_singular_refuted`
* `RandPtProps`: `rpx_box`, `rpx_tries`, `rpx_direction`, `rpx_unified`, `rpx_reach`, `rpx_reach_refuted`, `rpx_parabolic_refuted`, `rpx_twentieth_refuted`, `rpx_valid`, `rpx_lens`, `rpx_set_refuted`
* `RandomSensorProps`: `rgx_valid`, `rgx_count`, `rgx_share`, `rgx_fifteen`
* `RawCoordProps`: `rcx_same_pinhole`, `rcx_map`, `rcx_border`, `rcx_places`, `rcx_no_raw_refuted`
* `ShutterProps`: `rsx_delay`, `rsx_order`, `rsx_max`, `rsx_total`, `rsx_global`, `rsx_lidar_refuted`, `rsx_last_refuted`, `rsx_before_refuted`, `rsx_overflow_refuted`, `rsx_nan_refuted`
* `SpreadProps`: `spx_mean`, `spx_absolute`
* `SurfProps`: `sux_affine`, `sux_border`, `sux_range_refuted`, `sux_rotated_refuted`
* `TargetPdfProps`: `tpx_tag`, `tpx_space`, `tpx_outside`, `tpx_defined`, `tpx_corners`, `tpx_checkerboard`, `tpx_spacing_refuted`, `tpx_large_refuted`, `tpx_default_refuted`
* `TestRigProps`: `trx_test`, `trx_quaternion`, `trx_surround`, `trx_intended`, `trx_offset_refuted`, `trx_surround_refuted`
* `TriangulationProps`: `trx_newton_exact_partial`, `trx_newton_refuted`, `trx_newton_unobservable_refuted`, `trx_line_distance`, `trx_newton_step`
* `UndistortProps`: `udx_rectangles`, `udx_matrix_partial`, `udx_pinhole_matrix`, `udx_same_size_refuted`, `umx_position`, `umx_identity`, `umx_resize`, `umx_fixed_partial`, `umx_identity_map`, `umx_wrap_refuted`, `umx_far_refuted`
* `VPipeProps`: `vpx_channels`, `vpx_copy`, `vpx_shared`, `vpx_brisk`, `vpx_size`, `vpx_freak_refuted`
* `VanishProps`: `vnx_median`

### `ClassicalDedekindReals.sig_forall_dec`, `ClassicalDedekindReals.sig_not_dec`, `FunctionalExtensionality.functional_extensionality_dep`

* `CameraProps`: `ux_project_back_projection_partial`, `ux_project_back_projection_refuted`, `ux_back_project_projection`, `ux_status`, `ux_least_depth`, `zx_unified_invariant`
* `CircleProps`: `ix_intersection_partial`, `ix_touch_refuted`, `ix_equal_refuted`, `jx_exact`, `jx_defined`
* `DiffusionProps`: `nlx_flat`
* `EqualProps`: `eqx_meaning`, `eqx_refl`, `eqx_sym`, `eqx_projection`, `eqx_rig`, `eqx_rig_refl`, `eqx_frame`, `eqx_nframe`, `eqx_transitive_refuted`, `eqx_ignored_refuted`, `eqx_null_refuted`
* `FedRangeProps`: `ssx_overshoot_refuted`
* `FedTimeProps`: `ftx_number`, `ftx_short_refuted`
* `FocalProps`: `flx_conic`, `flx_frontal_refuted`, `flx_incomplete_refuted`
* `KInlierProps`: `kix_agrees`, `kix_again_refuted`
* `KSmoothProps`: `kgx_response`, `kgx_contrast`, `kgx_sum`, `kgx_range`, `kgx_ramp`, `kgx_mirror`, `kgx_none_refuted`, `kgx_negative_refuted`, `kgx_window_refuted`
* `KUtilProps`: `kux_inliers`, `kux_odd_refuted`
* `LensInvProps`: `rix_pinhole`
* `LidarProps`: `nx_unit`
* `LsdFilterProps`: `lax_size`, `lax_detect`, `lax_matrix_refuted`
* `LsdGrowProps`: `lgx_aligned`, `lgx_aligned_refuted`
* `LsdImproveProps`: `lix_count_refuted`, `lix_value`, `lix_part`, `lix_finer`
* `LsdOrderProps`: `lsx_bins`, `lsx_seeds`, `lsx_chain`
* `LsdSegmentProps`: `lfx_tolerance`
* `NumDiffProps`: `nux_exact`, `nux_success`, `nux_step_refuted`
* `OrientProps`: `orx_samples`
* `PnpProps`: `pnx_single`, `pnx_rig`, `pnx_refined`, `pnx_refined_refuted`, `pnx_failed_refuted`
* `PredictProps`: `prx_inverse_unified`, `brx_bearings`, `brx_bearing_pinhole`, `brx_failed_rays_refuted`
* `RadTanInvProps`: `rix_bend`, `rix_injective`, `rix_inverse`, `rix_default`, `rix_folded_refuted`
* `RandPtProps`: `rpx_pinhole`, `rpx_near_refuted`, `rpx_negative_refuted`, `rpx_unified_point`, `rpx_centre_refuted`
* `RandomSensorProps`: `rgx_camera`, `rgx_not_random`, `rgx_compressed_refuted`, `rgx_rig`, `rgx_poses`, `rgx_offset_refuted`, `rgx_index`, `rgx_ids`
* `RansacProps`: `rax_inliers_partial`, `rax_ransac_refuted`, `rax_multi_pose_refuted`, `rax_best_refuted`, `rax_stop_refuted`, `rax_stop_all`, `rax_outlier_continues`, `rax_seed_refuted`, `rax_same_second_refuted`, `rax_state_determines`
* `RawCoordProps`: `rcx_same_unified`, `rcx_map_pinhole`, `rcx_border_seen`, `rcx_jacobian`, `rcx_failed_refuted`, `rcx_map_refuted`, `rcx_border_refuted`, `rcx_jacobian_refuted`
* `ScaleSpaceProps`: `ssx_layers`, `ssx_unsupported_refuted`, `ssx_flat_refuted`, `ssx_zero_contrast`, `ssx_aspect_refuted`
* `SpreadProps`: `spx_standard`, `spx_bounds`, `spx_zero`, `spx_order`, `spx_few`, `spx_tail_refuted`
* `SurfProps`: `sux_unit`, `sux_none`, `sux_contrast`, `sux_reads`, `sux_weights`, `sux_gauge`, `sux_transposed`, `sux_samples`, `sux_rotation`, `sux_flat_refuted`
* `TriangulationProps`: `trx_too_few`, `trx_linear_exact_partial`, `trx_multi_cam_exact_partial`, `trx_bearing_exact_partial`, `trx_linear_exact_conditioned`, `trx_multi_cam_exact_conditioned`, `trx_bearing_exact_conditioned`, `trx_bearing_unobservable`, `trx_linear_unobservable_partial`, `trx_multi_cam_unobservable_partial`, `trx_linear_unobservable_refuted`, `trx_track_exact_partial`, `trx_track_refuted`, `trx_fast_track_refuted`, `trx_linear_least_squares`, `trx_multi_cam_least_squares`, `trx_bearing_least_squares`, `trx_variants_agree`
* `UndistortProps`: `udx_wide_angle_refuted`, `umx_identity_unified_partial`, `umx_wide_angle_refuted`, `umx_factories`
* `VanishProps`: `vnx_exact`, `vnx_between`, `vnx_none`, `vnx_skip`, `vnx_straight_refuted`, `vnx_same_refuted`

### `ClassicalDedekindReals.sig_forall_dec`, `ClassicalDedekindReals.sig_not_dec`, `Classical_Prop.classic`, `FunctionalExtensionality.functional_extensionality_dep`

* `CameraProps`: `px_jacobian_point`, `px_jacobian_intrinsics`, `px_radtan_jacobians`, `px_equi_jacobians`, `px_no_distortion`, `px_fisheye`, `ux_jacobian_point`, `ux_jacobian_intrinsics`, `ux_radtan_jacobians`, `zx_jacobian_refuted`
* `DiffusionProps`: `nlx_conductivity`
* `DistortionProps`: `lx_null`, `lx_radtan_jacobians`, `lx_jacobian_unique`, `lx_equi_jacobians_partial`, `lx_equi_jacobian_refuted`, `lx_equi_jacobian_centre`, `lx_equi_param_centre`, `lx_fisheye_jacobian_partial`, `lx_fisheye_params_partial`, `lx_fisheye_params_refuted`, `lx_fisheye_params_inner`, `lx_fisheye_inverse_partial`, `lx_fisheye_inverse_back_partial`, `lx_fisheye_inverse_zero`, `lx_fisheye_inverse_refuted`, `lx_fisheye_inverse_near_fails`
* `EquiInvProps`: `eix_slope`, `eix_gentle`, `eix_none`, `eix_barrel`, `eix_inverse`, `eix_centre`, `eix_default`, `eix_centre_refuted`, `eix_folded_refuted`
* `ExtremaProps`: `xtx_refined_inside`, `xtx_refined_stationary`, `xtx_refined_removed`
* `FedTimeProps`: `ftx_cycle`, `ftx_process`, `ftx_levels`, `ftx_sublevels_refuted`
* `KDescProps`: `kdx_rows`, `kdx_order`, `kdx_good`, `kdx_rows_contrast`, `kdx_unknown_refuted`, `kdx_level_refuted`
* `LensInvProps`: `eix_pinhole`
* `LidarProps`: `nx_project_back_projection_partial`, `nx_least_depth`, `nx_project_back_projection_refuted`, `nx_wrong_above_pi`, `nx_pole`, `nx_external_refuted`
* `LsdDetectProps`: `ldx_params`, `ldx_tolerance_refuted`, `ldx_kernel`, `ldx_advanced`, `ldx_refused`, `ldx_delivered`, `ldx_widths`, `ldx_standard`, `ldx_threshold`, `ldx_fewer`, `ldx_colour_refuted`
* `LsdEdgeProps`: `lwx_edge`
* `LsdFilterProps`: `lax_angle`, `lax_opposite`, `lax_reverse`, `lax_horizontal`
* `LsdGrowProps`: `lgx_region`, `lgx_grown`, `lgx_component`
* `LsdNfaProps`: `lnx_trivial`, `lnx_tail`, `lnx_excess`, `lnx_significance_refuted`
* `LsdOrderProps`: `lsx_gradient`, `lsx_plane`, `lsx_border`, `lsx_reads`, `lsx_order_refuted`
* `LsdRectProps`: `lcx_rect`, `lcx_throw`, `lcx_oriented`, `lcx_cover_refuted`, `lcx_outside_refuted`
* `LsdSegmentProps`: `lfx_segments`, `lfx_ends`, `lfx_safe`, `lfx_default`, `lfx_flat`, `lfx_throw_refuted`, `lfx_scaled`
* `NumDiffProps`: `nux_accuracy`, `nux_test`
* `OrientProps`: `orx_longest`, `orx_contrast`, `orx_reads`, `orx_windows`, `orx_axis_refuted`
* `PnpProps`: `pnx_inliers_single`, `pnx_inliers_rig`, `pnx_failure`, `pnx_defined`, `pnx_flag`, `pnx_target_refuted`, `pnx_target`, `pnx_mixed_refuted`
* `RandPtProps`: `rpx_lidar`
* `RandomSensorProps`: `rgx_float`, `rgx_covariance_refuted`
* `RansacProps`: `rax_pixel_threshold`, `rax_rig_threshold`, `rax_rig_single`
* `ScaleSpaceProps`: `ssx_defined`, `ssx_conserves`, `ssx_range`, `ssx_relit`, `ssx_reuse`
* `SurfProps`: `sux_centre_refuted`
* `TriangulationProps`: `trx_newton_jacobian`
