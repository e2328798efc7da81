# Design: a Coq model of selected parts of cartographer

The source under /repo is read as text.  Nothing is built or run.
The model lives in `rocq/theories` (logical name `Verif`), Coq 8.16.1.

## Method

* One group of files per component:
  `X_Model.v` (executable Gallina, one definition per C++ function, each with a
  comment naming file and lines), `X_Proofs.v` (lemmas), and the property
  theorems in `Properties_*.v`, closed by `exact lemma` and followed by
  `Print Assumptions`.  Specifications are stated over lists, sets, `Z` and
  functions, not over the model's helper functions.
* A failing `CHECK`, `LOG(FATAL)`, uncaught exception or undefined behaviour is
  a distinct outcome (`None` or `Abort`).  `DCHECK` is not modelled as an
  abort (release build) unless a comment says so.
* Concurrent code is modelled as a transition system whose steps are the
  critical sections of the C++ code; theorems quantify over every execution.
* `float` arithmetic where bits matter uses `SpecFloat` of the standard library
  (binary32: prec 24, emax 128, round to nearest even), which is computable and
  axiom free.  Theorems about it go through `FloatR.v`, which relates every
  operation to correctly rounded real arithmetic (Flocq), and then use error
  bounds; no large sweeps by computation are used.
* Geometry where bits do not matter uses exact `Q`/`Z`; this is a
  simplification and is noted at the definition.
* `std::sort` is modelled as an arbitrary function returning a sorted
  permutation; random generators as arbitrary choice sequences.
* When the property is false of the faithful model, there is a theorem
  `..._refuted : exists ...` with a witness, listed under Findings below.

## Plan per property

| id | model | proof |
|----|-------|-------|
| C01-C03 | OrderedMultiQueue as state + operations, Dispatch loop with fuel that is proved sufficient | invariants by induction over operation histories |
| C04 | TrajectoryCollator and Collator on top of it | projection (non-interference) by induction; witness for Collator |
| C05-C06 | Task + ThreadPool as a transition system over critical sections, any number of workers and clients, client contract as a separate predicate | inductive invariant over reachable states; enabledness by the order in which Schedule returned; potential function for termination |
| C07 | BlockingQueue critical sections | refinement to a FIFO list over all interleavings |
| C08 | Pulse on binary64 | induction on number of pulses with Flocq; exactness refuted by a witness |
| C09-C11 | MapById as nested sorted maps | refinement to finite map; binary search invariant; witness for C11 |
| C12 | MapByTime on sorted lists | list lemmas on lower/upper bound |
| C13 | TransformInterpolationBuffer as list with limit | induction over operations |
| C14, C16 | float32 conversion functions in SpecFloat | rounding error bounds: conversions are within 12 units of 2^-24 of the ideal ones, quantization steps are 409 units apart |
| C15, C17-C19, C22 | Grid2D and ProbabilityGrid as records over list/functional cells | induction over access sequences; index arithmetic |
| C20 | MapLimits over Q | arithmetic |
| C21 | RayToPixelMask on Z | loop invariants against a geometric predicate on Z |
| C23 | ActiveSubmaps2D/3D | induction over insertions |
| C27, C52, C53 | 3D range data insertion, voxel centres, intensity grid | hits and misses reduced to the table-application lemma of C15; samples characterised by integer inequalities; float error bounds |
| C24-C26 | FlatGrid/NestedGrid/DynamicGrid | refinement to a total function on Z^3 |
| C28-C29 | union-find forest, connectivity state | equivalence closure by induction; witness |
| C30 | PureLocalizationTrimmer on the model of PoseGraph2D | effect of trimming a set of submaps; counting of newer submaps |
| C31 | OverlappingSubmapsTrimmer2D: freshness, coverage grid, counters; std::sort an arbitrary sorting function | bounds on the kept entries for every order of ties; witness for counter wrap |
| C32 | RangeDataCollator: AddRangeData, CropAndMerge with conversions and sort as parameters | invariant over all message sequences; accounting as a permutation; witnesses |
| C33 | RandomizedVoxelFilterIndices and the VoxelFilter overloads on binary32 points, random draws arbitrary | invariant of the reservoir map |
| C34 | GetVoxelCellIndex: binary32 quotient, lround, packing modulo 2^64 | injectivity in range; colliding witness |
| C35 | AdaptivelyVoxelFiltered with binary32 lengths, fuel proved sufficient | error bounds of the float search; witnesses for the fallback and for subnormal lengths |
| C36 | CompressedPointCloud on top of the dynamic grid, binary32 rasterization, packing and unpacking, proto | grouping by block is a permutation; packing inverts; error bounds for the float raster; far witnesses |
| C37 | ProtoStream framing over byte lists, gzip abstracted by an invertible coder | round trip and prefix theorem |
| C38, C39, C41 | 2D fast correlative scan matcher with its precomputation grids; ComputeCellValue and ToScore first as any monotone functions, then as the float32 expressions | optimality by induction over the search tree, sliding windows by invariant; monotone rounding (FCSM_Float) |
| C40 | 3D fast correlative scan matcher on the hybrid grids of C24: conversion to 8 bits, PrecomputeGrid, stack with half resolutions, DiscretizeScan, branch and bound with the low resolution check | each level dominates the cubes of side 2^d by induction over the octant writes; index shifts commute with aligned offsets; optimality by induction over the search tree; witness for the border |
| C42 | PoseGraph2D: submaps, nodes, constraints, trajectory states, work queue, optimization phases, trimming; calls, work items and phases are the steps of a transition system | invariant over all histories; witness for AddNodeToSubmap |
| C43 | AddWorkItem, DrainWorkQueue, HandleWorkQueue, WaitForAllComputations as a transition system whose steps are critical sections, items and calls of the constraint builder (WQ_Model) | invariant: either no queue and no worker, or one worker, or one stored callback; measure for termination; counterexamples for waiting threads |
| C44 | same model as C42 | invariants over all histories; witnesses |
| C45 | WritePbStream, ToProto, ProtoStreamDeserializer and LoadState on top of the model of C42, with opaque values for poses, grids and readings | closed form of the calls LoadState makes for a written file; invariant over all interleavings of these calls with the worker; comparison of the final state by look-ups only (SL_Spec); witnesses |
| C46 | all of ConstraintBuilder2D but the scan matching itself: MaybeAddConstraint, MaybeAddGlobalConstraint, NotifyEndOfNode, WhenDone, DispatchScanMatcherConstruction, RunWhenDoneCallback, DeleteScanMatcher, destructor, as a transition system whose steps are critical sections and beginnings and ends of tasks; pointers into constraints_ and to scan matchers are numbers that can dangle (CB_Model) | invariant over the task graph by induction over runs; expectation computed from the client calls alone (CB_Spec); counterexamples for impolite clients |
| C47, C54 | RemovePoints; point processors as stages of a pipeline, restarted passes | index lists against selection by flags; induction over the stages |
| C48 | color components in binary32 | sweep of 256 values, rounding error bounds |
| C49 | Lua dictionary reference counts | induction over read histories |
| C50 | LocalTrajectoryUploader send loop | invariant; witness for Shutdown |
| C55 | same model as C42, with a client protocol (PG_Client) and ActiveSubmaps2D as its source (PG_Front) | invariant relating the queued items of each trajectory to its submaps and nodes, over all interleavings; witnesses |
| C56 | pose extrapolator and IMU tracker with their queues, over opaque rotations, vectors and filter | simulation of a machine that keeps the whole history, by induction over calls; clocks deciding the aborts; witnesses |
| C57 | local trajectory builder and motion filter on top of the models of the collator (C32) and the extrapolator (C56), over opaque matching and submaps | invariant over messages relating merge time, newest pose and last prediction; grouping and filter by induction over events; binary32 clock; witnesses |
| C58 | `FromSeconds` and `ToSeconds` in binary64, point times in binary32 | error bounds of the two roundings; exactness of binary32 times times 10^7 in binary64; witness |
| C59 | `OptimizationProblem2D`: its data, the members that modify it, the problem `Solve` builds and what it stores, over opaque poses and any solver; landmarks by the iterators of C01's `MapById` model | invariant over histories; each loop of `Solve` characterised by look-ups only; iterator lemmas for `BeginOfTrajectory`, `lower_bound`, `next` and `prev`; witnesses |
| C60 | `TSDValueConverter` with its conversion tables, in binary32, for symbolic truncation distance and maximum weight | error analysis of the conversion for any bounds `lo <= 0 <= hi` whose difference is exact, a few units of 2^-24 against steps of 512; witness |
| C61 | `TSDF2D`: both vectors, on top of the `Grid2D` model of C15-C20 | invariant over operations: distances and weights are two well-formed grids with the same known cells; growing and cropping as embeddings of both |
| C62 | `TSDFRangeDataInserter2D::UpdateCell`; `ComputeCandidateScore` for TSDFs | error analysis of the weighted average; invariant `0 <= score <= weight <= 2^60` of the rounded sums, which saturate; witness |
| C63 | `RealTimeCorrelativeScanMatcher2D::Match` after discretization: search window, candidates, scores in binary32, maximum; rotation and discretization of the scans are inputs | candidates as a lexicographically sorted list; invariant `0.09 <= sum <= min(k, 2^24)` and error `k^2 2^-24` of the rounded sum; `max_element` splits the list |
| C64 | `SpaCostFunction2D` generic in its scalar, instantiated with reals and with `ceres::Jet`; `AnalyticalSpaCostFunction2D`; `NormalizeAngleDifference` over the reals and in binary64 | trigonometric identities; derivatives of `K + L t + M cos t + N sin t`; normalization is locally a shift off half turns; loop measure and Sterbenz in binary64; witnesses |
| C65 | `Rigid2`, `Rigid3`, Eigen quaternions, `GetAngle`, `GetYaw`, both angle-axis conversions, `Project2D`, `Embed3D`, `RollPitchYaw` over the reals | quaternion algebra; polar form of unit quaternions and Rodrigues' formula as the independent notion of a turn; bounds of sine and cosine below the cut-offs; witnesses |
| C66 | `ComputeUnscaledError` and `ScaleError` in 3D, `SpaCostFunction3D`, `RotationCostFunction3D`, `AccelerationCostFunction3D`, the delta cost functors, over the reals | quaternion algebra and C65; field identities for uniformly accelerated motion |
| C67 | `SlerpQuaternions`, `InterpolateNodes2D/3D`, `LandmarkCostFunction2D/3D`, over the reals | addition theorems; inner products of quaternions are preserved by unit factors; C66; witnesses |
| C68 | `InterpolatedGrid` for doubles and Jets, `OccupiedSpaceCostFunction3D`, `IntensityCostFunction3D`, `IntensityHybridGrid`, over the reals | reduction to one dimension; polynomials glued at the centres; mean value theorem |
| C69 | `InterpolatedTSDF2D` for doubles and Jets, `TSDFMatchCostFunction2D`, `MapLimits`, over the reals | reduction to the surrounding cell; local equality with a polynomial; refutations on a grid of 2 x 2 cells |
| C70 | `OccupiedSpaceCostFunction2D` with `GridArrayAdapter`; `ceres::BiCubicInterpolator` from its documentation | translation of splines; polynomials glued at the centres; chain rule along curves |
| C71 | `RotationalScanMatcher::ComputeHistogram` and its helpers, over the reals | invariant of the loop over a slice; simulation between a slice and the turned one; refutation on four points |
| C72 | `RotateHistogram`, `MatchHistograms`, `Match`, over the reals | piecewise linear interpolation of a periodic sequence; Cauchy-Schwarz |
| C73 | `SearchParameters`, `GenerateRotatedScans`, `DiscretizeScans`, the pose of a candidate, `MatchFullSubmap`'s window, over the reals | law of cosines at the angle of `acos`; rounding to the nearest candidate |
| C74 | `GenerateDiscreteScans` without the cells and the windows of `Match` and `MatchFullSubmap`, over the reals | as C73, with quaternions; the scores of C72 |
| C75 | `RealTimeCorrelativeScanMatcher3D`, over the reals with a positive probability for every point | membership in six nested loops; invariant of the maximum |
| C76 | `ProbabilityToLogOddsInteger` and the texels of probabilities and distances, over the reals | logarithms and rounding to the nearest |
| C77 | the textures of 2D grids from G2, unpacking, 32 bit pixels, Cairo's matrices and the bounding box | induction over the cells; interleaved and row-major indices; affine maps take rectangles into the box of their corners |
| C78 | the X-ray textures of 3D grids, over the reals, with int overflow | induction over the voxels; fold of a column |
| C79 | `ImuTracker` with Eigen's `FromTwoVectors`, over the reals | quaternion algebra; invariant over the calls; induction over the samples |
| C80 | `IntegrateImu` and `ExtrapolatePoseWithImu`, over the reals | the loop refines a list of pieces; monoid of motions |
| C81 | the PLY and PCD writers down to the bytes, on a file with a position | round trip through independent readers of the two formats |
| C82 | `DetectFloors` as a whole, heights and lengths with arbitrary arithmetic | induction over the nodes; invariant of the union-find with its number of roots as termination measure; counting |
| C83 | autogenerate_ground_truth.cc as a whole over the reals | induction over nodes and constraints; conjugation of rigid transforms; the relations as an inductive specification, in both directions |
| C84 | the computation of compute_relations_metrics_main.cc over the reals and the interpolation buffer of C13 | group laws of C65; uniqueness of times; composition with C83 |
| C85 | the IMU part of OptimizationProblem3D::Solve over the reals, with the integration of C80 and the cost functions of C66 | invariant of the iterator over the loop; additivity of rotations of C80; exact success condition |
| C86 | TSDFRangeDataInserter2D over the reals, with RayToPixelMask of C21; sorting and normals are parameters | growth by a distance that shrinks in each round; the segment between subpixel centers against the ray; induction over mask and returns with the set of updated cells; cosines for the sorter |
| C87 | EstimateNormals over the reals | unfolding to the list of samples; scalar product of the sum with the direction to the origin; atan2 of a turned vector |
| C88 | the two functors over the reals | half-angle identities; conjugating the target direction into the submap and taking its arc cosine |
| C89 | the migration and the histogram part of InsertData over the reals, with RotateHistogram of C72 | induction over the constraints with the nodes inserted so far; sums bin by bin |
| C90 | pixels as a vector of 32-bit words | index arithmetic; extensionality of images |
| C91 | the aggregations as lists of voxels and columns, the matrix and the picture | induction over points, voxels and batches; the box as minimum and maximum of the columns |
| C92 | the deque of events, the rate, ratio, and the mean and deviation of the distances over the reals | induction over the pulses with the events dropped so far; telescoping sums |
| C93 | the rows of the text, generic in the type of values | induction over the buckets with the values below the current bound |
| C94 | the sender with ActiveSubmaps (ASM_Model) and its index, SubmapController, the results of local SLAM, and the registration of submaps by pointers | the closed form of C23 for each message; an invariant that gives each object its submap, by induction over the messages that arrive |
| C95 | FixedWidth and the loop of ScaledPowersOf in binary64, the latter with fuel | each product of a normal number with a base above 1 is at least the next double, so the loop ends; relative errors of Flocq for products and sums, by induction over the boundaries |

## Not expressible

Numerical optimisation (Ceres), eigenvalue code, ROS/gRPC transport, OpenCV/Cairo
rendering and the Lua interpreter are not modelled.  They are called as opaque
functions where a modelled function needs their result.

## Findings

Behaviour of the code that contradicts a header comment, a reasonable reading of
the property, or is undefined.  Each has a theorem ending in `_refuted` unless
noted.

* C01: a queue registered late for a trajectory whose other queues have already
  been dispatched makes `Dispatch` abort when it delivers older data.
* C03: `OrderedMultiQueue::GetBlocker` reads `blocker_` before any `Dispatch`
  assigned it (indeterminate value in C++).
* C04: the plain `Collator` does not isolate trajectories; a silent sensor of one
  trajectory delays another.
* C09: `MapById::end()` is `BeginOfTrajectory(INT_MAX)`, so a trajectory with id
  INT_MAX is never iterated.
* C11: trimming the only entry of a trajectory forgets `can_append_ = false`,
  and ids restart at 0.
* C12: node times equal to `Time::min()`/`Time::max()` collide with sentinels
  (excluded by hypothesis).
* C14: NaN passes through `Clamp` to `lround`, whose result is unspecified; the
  value 2^15 (marker on an unknown cell) is not preserved by the conversion
  between probability and cost values.
* C16: `hit_probability = 1` is accepted by the option checks, gives infinite odds
  and then lookup table entries computed from NaN.
* C17: a point exactly on the old maximum border is outside the grid before
  growing and in a known cell afterwards.
* C15: `HybridGrid::SetProbability` on a voxel already touched by the current update
  is guarded only by a DCHECK; `FinishUpdate` then wraps the value and the voxel
  stays marked, so it is never updated again.
* C20: the map limits contain a point exactly if it lies strictly inside the
  rectangle; both borders are outside, since `lround` rounds half away from zero.
* C22: the ray caster multiplies cell indices by 1000 in `int`; grids above 2147483
  cells per side overflow (excluded by hypothesis).
* C23: `2 * num_range_data` overflows `int` for num_range_data >= 2^30 (excluded).
* C24: reading an index within 8192 of INT_MAX overflows `int` (excluded).
* C29: `Connect` on untracked trajectories aborts, contrary to the header comment.
* C37: a stream truncated at a record boundary is accepted as complete
  (C37_truncation_undetected).
* C31: cell counters are `uint16`: a submap that alone covers 2^16 cells (about 13 m x
  13 m at 5 cm) is removed.  `submap_data.size() - current_submap_count_` wraps when
  submaps were deleted by others; with none left `begin()` of an empty map is
  dereferenced.  Entries are counted per submap cell, so a rotated submap can occupy two
  of the fresh slots of one coverage cell.
* C34: the packed key gives y and z 21 bits each and x 22; points outside collide and are
  dropped (42 km in x at 1 cm resolution).
* C35: when no length is dense enough `AdaptivelyVoxelFiltered` returns the cloud filtered
  with max_length / 128, not the full cloud as its comment says: the output can have fewer
  than min_num_points points although the input has more.  For max_length = 2^-148 the
  binary search does not end.
* C32: `RangeDataCollator` says it only needs messages monotonous in their time.  A point
  later than its message keeps the message pending, and `emplace` then silently drops the
  next message of the sensor (C32_future_point_refuted).  If only each sensor is in order,
  `current_end_` moves backwards and results go back in time (C32_cross_sensor_refuted).
* C36: the header promises points moved by at most the precision; beyond 8192 m binary32
  numbers are 1/1024 m apart, a point moves by more than half a raster step and moves on by
  the same amount each time the cloud is compressed again (C36_half_step_refuted,
  C36_recompress_refuted).  The suspected off-by-one at the upper limit of the range check
  does not exist: C36_round_trip covers all accepted points.  Not in the model: the left
  shift of a negative block coordinate in `ReadNextPoint` is undefined before C++20.
* C48: `FloatComponentToUint8(NaN)` passes NaN through `Clamp` to `lround`.
* C54: two outlier-removing stages in one pipeline abort in `Flush` (documented by the
  CHECK message).
* C49: `GetKeys` skips keys for which `lua_isnumber` holds, which includes strings that
  look like numbers; such keys can go unread unnoticed.  A boolean key makes `GetKeys`
  build a `std::string` from a null pointer.
* C50: `Shutdown` loses the current batch and everything still queued.  If the channel
  cannot be reconnected within the timeout, `TryRecovery` returns without winding the
  queue forward and without registering trajectories anew, so the upload resumes in the
  middle of a submap.  With batch_size <= 0 nothing is ever sent.
* C42: the work item of `AddNodeToSubmap` puts a node id into a submap without
  looking whether the node is stored; trimming that submap then throws.
* C43: `WaitForAllComputations` waits for the queue to be null, releases the lock and only then
  calls `WhenDone`. A work item submitted in between (or a second waiting thread) that gets to
  `WhenDone` meanwhile aborts the process: `CHECK(when_done_ == nullptr)`.
* C46: `MaybeAddConstraint` while a `WhenDone` callback is waiting is tolerated by the code (it
  logs a warning), but `RunWhenDoneCallback` then clears `constraints_` while the search still
  holds a pointer into it: a write to freed memory. The same happens for a search that is not
  followed by `NotifyEndOfNode` before `WhenDone`. `DeleteScanMatcher` between a search and its
  callback frees the scan matcher under the search, and no warning is given unless a callback is
  waiting. The pose graph avoids all three by its work queue (C43), except through
  `WaitForAllComputations` while work is being added.
* C44: `DELETED` is not terminal: the items of `FinishTrajectory` and
  `FreezeTrajectory` overwrite it.  `DeleteTrajectory` marks the trajectory at
  once, and data items still queued die (`LOG(FATAL)`) on the mark, although
  `FinishTrajectory` was called before.  The deletion is carried out by the next
  optimization only; if none is requested it never happens.
* C55: trimming a submap does not touch `global_submap_poses_2d`.  If an overlapping
  submaps trimmer removes the last submap of a finished trajectory while nodes of it
  remain, the next `RunOptimization` looks the removed submap up in
  `ComputeLocalToGlobalTransform` and throws `std::out_of_range`.
* C55: for the same reason `GetLocalToGlobalTransform` of a deleted trajectory throws
  until the next optimization.
* C55: `DeleteTrajectory` for a finished trajectory that has a pure localization trimmer
  aborts: the trimmer sets `DELETED` before the queued item is executed.  Calling
  `DeleteTrajectory` twice, `FinishTrajectory` twice, or `DeleteTrajectory` for an active
  trajectory aborts in the worker thread.

* C40: `PrecomputeGrid` writes each visible voxel also at indices lowered by `shift` without
  looking at the limits of the grid.  A voxel near -8192 cells makes `mutable_value` fail its
  CHECK, so constructing the matcher aborts for a submap that is itself legal.
* C45: `ToProto` lists the trajectories that have a submap or node, the options are those
  of the trajectories in `GetTrajectoryStates` that are not deleted.  A trajectory finished
  before its first node is only in the second list; the file is written without complaint
  and can never be loaded (`CHECK_EQ` in `ProtoStreamDeserializer`).
* C45: trimming and deleting do not remove landmark observations, odometry or fixed frame
  poses; `trajectory_remapping.at` throws for the observations of a deleted
  trajectory, and for sensor data that came in before the first node.  Loading such a file
  frozen works, as the sensor data is skipped.
* C45: the two lists above are paired by position, one in order of first submap, then first
  node, the other by number.  If a map saved without unfinished submaps is loaded and one
  trajectory has only nodes, saving and loading again exchanges the options.
* C45: the file is written with many calls, each of which locks the pose graph anew; a node
  added in between makes a file that cannot be loaded.
* C45: landmarks are loaded frozen (`SetLandmarkPose(..., true)`) and finished trajectories
  as active ones; the loop over `orphaned_nodes` in `ToProto` has no effect.

* C56: `ExtrapolatePose` keeps its last prediction over `AddPose`: asked for the time of the
  newest pose after having predicted that time, it answers with the old prediction and not
  with the pose added since (`C56_newest_pose_refuted`).
* C56: `AdvanceImuTracker`/`TrimImuData` start with the first reading not older than the
  newest pose, so that of two readings with the time of a pose the first is never used.
* C56: two odometry messages with equal time make `AddOdometryData` divide by a zero
  duration; the NaN reaches the check on the gravity vector and a later `AddPose` aborts.

* C57: points at exactly the time of the last result are placed by the prediction made before
  scan matching, because the extrapolator answers with its cached prediction
  (`C57_matched_pose_refuted`, a consequence of `C56_newest_pose_refuted`).
* C57: `AddRangeData` aligns a scan with the inverse of the pose of its last point
  (local_trajectory_builder_2d.cc:198-204).  That is the pose at the time of the scan if every
  message ends with a point at its own time (`C57_last_point`, which answers the TODO at
  line 129: with such messages the last point time is strictly 0).  Otherwise the pose of
  the scan is wrong even if everything is measured without error (`C57_last_point_refuted`).
* C58: `FromSeconds(ToSeconds(d))` truncates and loses a tick, for d = 21 for one.

* C59: sightings of landmarks are never removed (`landmark_nodes` is only added to), but
  `AddLandmarkCostFunctions` dereferences `BeginOfTrajectory` of the trajectory of each sighting.
  Deleting the trajectory with the highest id, if it has seen a landmark, makes the next
  optimization abort in id.h:177 (`C59_deleted_refuted`); so does a sighting that
  arrives before the first node of the trajectory with the highest id.  If a later trajectory has
  nodes, the iterator silently refers to that trajectory; the sighting is then skipped either way
  (`C59_terms`).  The 3D code is the same (optimization_problem_3d.cc:130-150).
* C59: a sighting at exactly the time of the only node of its trajectory is tied to that node and the
  first node of another trajectory, because `std::next` leaves the trajectory
  (`C59_pairing_refuted`); with no later trajectory it aborts (`C59_aborts`).
* C59: `MapByTime::Trim` keeps for every other node the data before (or at) and after (or at)
  its time, but `Interpolate` for fixed frame poses looks at the data strictly before.  If a fixed frame
  pose is at exactly the time of a node and the one before is missing, trimming another node can give this
  node a fixed frame term that it did not have (`C59_trim_refuted`); otherwise trimming removes
  exactly the terms of the trimmed node (`C59_trim`).

* C60: `ValueToTSD` can return more than the truncation distance, against its comment
  (`C60_bounds_refuted`, T = 0.35 with value 32767): the table is computed as
  `value * scale + (lower - scale)` with rounding.  In single precision this concerns about a
  fifth of the distances that are multiples of one centimetre (0.13, 0.26, 0.27, ...), not the
  default 0.3.
* C62: for such a truncation distance the real time correlative scan matcher aborts on
  `CHECK_GE(candidate_score, 0.f)` if all points of the scan that hit known cells hit cells at the
  full truncation distance (`C62_score_refuted`); with the default it cannot (`C62_score`).

* C63: an empty point cloud makes the real time correlative scan matcher abort on
  `CHECK_GT(candidate_score, 0.f)` since 0/0 is not greater than 0 (`C63_empty_scan`); the local
  trajectory builder only calls it with non-empty clouds.
* C64: `NormalizeAngleDifference` never ends for large doubles: from 2^60, `difference -= 2. * kPi`
  has no effect (`C64_double_refuted`).  Up to 2^50 it ends (`C64_double`).  At an angular error of
  exactly half a turn the cost jumps, so that its Jacobian is not a derivative there
  (`C64_jacobian_refuted`).
* C65: `IsValid` accepts rotations whose norm is off by up to 1e-3, but `inverse()` conjugates without
  normalizing: for a transform 1000 m from the origin, `a * a.inverse()` can be off by more than 4 m
  (`C65_inverse_refuted`).  The comment of `GetYaw` ("returns the angle of the Z rotation") is wrong for
  pitches beyond a quarter turn (`C65_yaw_refuted`).  At half turns the angle-axis vector depends on the
  sign of the quaternion (`C65_sign_refuted`), so costs built on it jump there.
* C67: below an angle of about half a degree `SlerpQuaternions` interpolates linearly and does not
  return a unit quaternion (`C67_slerp_unit_refuted`), while `ComputeUnscaledError` takes its conjugate
  for its inverse.  Half a turn apart, the interpolation depends on the signs of the quaternions
  (`C67_slerp_sign_refuted`).

* **The 2D TSDF residuals jump at the border of the known area (C69).** As soon as one of the four
  surrounding cells is unknown, `GetCorrespondenceCost` is the truncation distance, while `GetWeight`
  still interpolates and is positive. A residual therefore jumps by up to the whole range of costs
  when a point crosses the last row of centres, and a known cell at the border never has its own cost
  at its centre (`C69_jump_refuted`, `C69_border_refuted`).
* **The interpolated cost of the 2D scan matcher can be negative (C70).** Catmull-Rom splines overshoot:
  with all cells between 0.1 and 0.9 the residual can be -1/8 of the scaling factor
  (`C70_sign_refuted`). Its square then exceeds the one at the best cell. The overshoot is at most
  9/32 of the range (`C70_bounds`).

* **The histogram of a turned cloud is not the turned histogram (C71).** `SortSlice` orders points by
  an angle that starts at the negative x axis, the line from the last to the first point is not
  counted, and the reference point only moves when a point is more than 0.9 m away. The four corners
  of a square turned by 90 degrees are the same four corners, so the histogram does not change; the
  turned histogram is orthogonal to it and the score at the true angle is 0 (`C71_turn_refuted`).
* **The direction of the negative x axis has another bin than the positive one (C71).** The comment in
  `AddValueToHistogram` promises [0, pi), but an angle of exactly pi is kept and falls into the last
  bin, while 0 falls into the first (`C71_opposite_refuted`).
* **Almost empty histograms match everything (C72).** When the product of the norms is below 0.001 the
  score is 1, the largest one (`C72_empty`), so a scan without structure passes every threshold.

* **The cells a candidate is scored by need not be those of its pose (C73).** A candidate is scored on
  the cells of the rotated scan plus an offset; for a point exactly on the border of two cells
  `GetCellIndex` rounds away from zero, so that the offset of 1 can move its cell from -1 to 1
  (`C73_estimate_refuted`).  Off the borders they agree (`C73_estimate`).
* **An empty cloud stops the real time scan matcher in 3D (C75).** The mean over no points is 0 / 0 and
  the CHECK on the score fails (`C75_empty`); the caller has to exclude it.

* **The first submap without a surface ends the painting (C77).** `CairoPaintSubmapSlices` returns where
  it should continue: all submaps after the first one whose texture has not been fetched are missing
  from the image (`C77_all_painted_refuted`).
* **Painting nothing is undefined (C77).** Without a slice to paint the bounding box is empty, its size is
  minus infinity, and the conversion to int is undefined (`C77_empty`).
* **Tilted slices are painted in the wrong place (C77).** The matrix given to Cairo uses the entries of
  the rotation as if there were no roll and pitch (`C77_position_refuted`).
* **A 3D submap without obstructed voxels has no texture (C78).** min_index and max_index keep their
  initial values, and INT_MIN - INT_MAX + 1 overflows (`C78_empty`).
* **3D textures are half a voxel off (C78).** Voxel centres are multiples of the resolution, but the corner
  of the texture is put at the centre of the outermost voxel (`C78_texture`, `C78_position_refuted`).

* **Free fall aborts the tracker (C79).** `AddImuLinearAccelerationObservation` CHECKs that the averaged gravity
  points up after the correction. It does unless the average is the null vector: a first acceleration of
  zero, or one that cancels the average, ends the program (`C79_accepted_refuted`).
* **A robot at rest is extrapolated upwards (C80).** `IntegrateImu` moves with the velocity at the end of every
  piece, whereas `ExtrapolatePoseWithImu` subtracts exactly g t^2 / 2. With readings every h seconds a robot
  that does not move is extrapolated g h t / 2 upwards, 5 mm after 0.1 s at 100 Hz (`C80_rest`, `C80_rest_refuted`).
* **Two IMU readings with the same time end the chain (C80).** If an interval ends at their time, the iterator
  stays at the first of them, and the next call fails its CHECK (`C80_duplicate_refuted`).

* **A PLY file without points reads an uninitialised flag (C81).** The constructor of `PlyWritingPointsProcessor` sets
  `has_colors_`, but not `has_intensities_`, which `Flush` reads to write the header (`C81_ply_empty_refuted`).
* **Mixed batches give a broken PCD file (C81).** `PcdWritingPointsProcessor::Process` writes a colour whenever the
  current batch has colours, while the header is that of the first batch; the PLY writer uses
  `has_colors_` (`C81_pcd_mixed_refuted`). It also lacks the CHECK that there are as many colours as points (`C81_pcd_short`).
* **A newline in a PLY comment breaks the header (C81)** (`C81_comment_refuted`).

* **A jump between the first two nodes reads `node(-1)` (C82).** `SliceByAltitudeChange` begins with a span
  that ends at 0; if the next node is in a new span already, it stays empty, and `FindFloors` reads
  `trajectory.node(span.end_index - 1)` (`C82_abort`, `C82_first_refuted`).
* **Of two landings in a row the second is lost (C82).** `FindFloors` adds a short span to the levels of its
  neighbours. That makes the level of the next short span non-empty, so this is added there only, and the level is
  dropped as it has no long span (`C82_lost_refuted`).
* **An excursion is listed twice (C82).** A short span between two spans of the same level is added to that
  level as the one before and as the one after (`C82_twice_refuted`).

* **Ground truth of trimmed maps names the wrong nodes (C83).** `GenerateGroundTruth` takes
  `constraint.node_id().node_index()` for a position in `trajectory.node()`, likewise for submaps. Serialized nodes
  carry their `node_index` because the two differ once nodes have been trimmed (`C83_trimmed_refuted`).
* **Nodes of equal time spoil the metrics (C84).** Relations identify nodes by their times. If two nodes have the
  same time, a relation generated without error is evaluated with one (`C84_self_refuted`).

* **Short trajectories abort the 3D optimization (C85).** `problem.SetParameterLowerBound(&gravity_constant, 0, 0.0)`
  is called for every trajectory that is not frozen, but the block of `gravity_constant` is only added by acceleration
  terms. Ceres ends with a fatal error for a block it does not know. A trajectory of one or two nodes, or one with no
  three consecutively numbered nodes (after trimming), has no such term (`C85_short_refuted`).

* **A TSDF grid is not grown far enough for returns above or below the origin (C86).** `GrowAsNeeded` extends the box by
  the truncation distance along the three-dimensional direction of the return, but `InsertHit` casts the ray to the
  truncation distance behind the hit in the plane, which is further. A return at another height than the origin whose
  end lies near the border of the grid makes the ray leave the grid, and a CHECK in `RayToPixelMask` or `ToFlatIndex`
  fails (`C86_height_refuted`). Range data of the 2D trajectory builder is only cropped in height, so this can happen.

* **Normals are 0 for duplicated returns and for returns along a line of sight (C87).** `EstimateNormal` adds the unit
  normals of the lines to the samples. A sample at the same place contributes 0, and two samples before and behind on
  the line of sight contribute opposite normals, since neither is on the side of the origin. The sum is then 0 and
  `atan2(0, 0)` gives the angle 0, whatever the direction of the origin (`C87_duplicate_refuted`, `C87_sight_refuted`).

* **ConstantYawQuaternionPlus does not keep the yaw (C88).** From the identity, the step of length pi/4 in the direction
  (1, 1) leads to a rotation with the yaw pi/4 of `GetYaw` (`C88_yaw_refuted`): the vertical component of the rotation
  vector in the submap is kept at 0, which is not the yaw. Steps below 10^-6 moreover give quaternions that are slightly
  too long, by less than 10^-12 (`C88_unit_error`, `C88_unit_refuted`).

* **Migration adds histograms without comparing sizes (C89).** `MigrateSubmapFormatVersion1ToVersion2` copies the
  histogram of the first node and adds the others with `Mutable(i)`. A later node with more bins makes it write outside
  the histogram of the submap, one with fewer bins is added to the wrong bins without notice (`C89_sizes_refuted`). The
  number of bins is an option, so it can differ between trajectories of one map (a submap only gets nodes of its own
  trajectory, so this needs a file in which it differs within one).

* **Columns with a single voxel are invisible in X-ray pictures (C91).** The saturation of a pixel is the logarithm of the
  number of occupied voxels in its column, relative to the largest. For one voxel it is 0, and the pixel has the color
  of an empty one (`C91_thin`); the picture of a floor or ceiling seen from above can be all white
  (`C91_visible_refuted`).

* **The deviation of two pulses is 0/0 (C92).** `DebugString` writes "unknown" with fewer than two events, but
  `DeltasDebugString` divides by the number of distances less one, so with exactly two events it reports a deviation of
  NaN. `ComputeRate`, which is public, is 0/0 with one event, while it is 0 without events (`C92_numbers_refuted`).

* **Bounds of histogram buckets need not increase (C93).** `max * (i + 1) / buckets + min * (buckets - i - 1) / buckets`
  is rounded in `float`. For values 1.5 and 1.5 + 2^-22 and 5 buckets the second bound is below the first, both values
  together are counted three times, and the last row says "Total: 3" for "Count: 2" (`C93_float_refuted`). This needs
  values that are very close together relative to their size.

* **Trajectories with an uplink share one submap index (C94).** `MapBuilderServer::starting_submap_index_` is one counter
  for all trajectories, and is increased when a submap of any of them is finished. If two trajectories run at the same
  time, the submaps of one change their ids in mid life: the uplink server then applies the data of one submap to the
  next one, which ends up with the pose of one and the grid of the other (`C94_trajectories_refuted`), and refuses the
  rest. The code has a TODO to make this more robust.
* **In 3D a lost message crashes the uplink server (C94).** `UpdateSubmap` returns a null pointer for a submap whose first
  message did not arrive. `LocalSlamResult2D` leaves such submaps out, `LocalSlamResult3D` passes the null pointers to
  `AddNode`, which uses them (`C94_lost_refuted`, and for every first message but the first of the trajectory
  `C94_recovery_3d`). When the uplink fails, the uploader drops messages up to the next new submap and continues under
  a new trajectory, so this happens with every recovery in 3D but one that finds the first submap of its trajectory.
  For one trajectory in 2D such a recovery works (`C94_recovery`).
* **A lost message within a trajectory fails a CHECK (C94).** If messages are missing in a trajectory that goes on under
  its old number, `InitializeGlobalSubmapPoses` can fail a CHECK (`C94_gap_refuted`). The uploader of C50 does this
  (`C94_uploader_refuted`): after a failed write it clears the batch, and `TryRecovery` returns without forgetting the
  old numbers if the channel is not ready in time; if the same server is reached again later, the next batch goes to
  the old trajectory.

* **`ScaledPowersOf` can loop for ever (C95).** Its CHECKs allow any positive scale factor and any base above 1, but a
  subnormal scale factor times a base next to 1 can round to itself, and then boundaries are added without end
  (`C95_ends_refuted`). No caller uses such values.
* **`FixedWidth` adds up roundings (C95).** The score histograms use `FixedWidth(0.05, 20)`. Its tenth boundary is
  0.49999999999999994 and its last 1.0000000000000002, so a score of exactly 0.5 counts as above the tenth boundary
  (`C95_multiples_refuted`); multiplying instead of adding would give 0.5 and 1.

## Trusted base

* Coq 8.16.1 kernel (and `vm_compute` conversion, part of the kernel).
* The reading of the C++ text into Gallina, as cited in the comments.
* Axioms: see the list at the end of this file, one line per theorem group
  (as printed by `Print Assumptions`).
* C++ `int` overflow is modelled only where the property is about it.
* float32/float64 operations are IEEE-754 round-to-nearest-even without
  excess precision or fused multiply-add contraction.

## Modelled code

Paths are below `cartographer/`.  "Opaque" parts are parameters of the model, and the theorems hold
for every value of them.  Simplifications are repeated at the definitions.

| files | model | modelled | opaque, simplified or left out |
|-------|-------|----------|--------------------------------|
| sensor/internal/ordered_multi_queue, collator, trajectory_collator | OMQ_Model | all methods; Dispatch loop with fuel | data are times with a tag; logging and metrics left out |
| sensor/map_by_time.h, mapping/id.h | MapById_Model | MapById with its iterators, MapByTime | trajectories and times as integers; int limit only in C09's refutation |
| sensor/internal/voxel_filter.cc | VF_Model | VoxelFilter, AdaptiveVoxelFilter in binary32 | random draws arbitrary; Lua options not read |
| sensor/compressed_point_cloud | CPC_Model | construction, iterator, proto | intensities do not exist in it |
| sensor/range_data, point_cloud, rangefinder_point, timed_point_cloud_data | as types of VF, INS, I3, RDC | fields, Translate/crop where used | proto conversions left out |
| sensor/imu_data, odometry_data, landmark_data, fixed_frame_pose_data | - | - | opaque readings in PE, OP, SL |
| common/task, thread_pool | TP_Model | all critical sections | contents of work items |
| common/internal/blocking_queue.h | BQ_Model | all methods | durations |
| common/fixed_ratio_sampler | FRS_Model | constructor and Pulse in binary64 | DebugString |
| common/time | TM_Model | FromSeconds, ToSeconds in binary64 | universal time, CPU time; int64 limits |
| common/math.h, port.h | CF, PV, G2, IG | Clamp, RoundToInt, NormalizeAngleDifference, atan2, QuaternionProduct | - |
| common/lua_parameter_dictionary.cc | LPD_Model | reference counts, getters, destruction | the Lua interpreter; ToString |
| common: histogram, internal/rate_timer | HT_Model | rows of ToString over the reals and binary32; window, rate, deviation | formatting; mean of a histogram |
| common: configuration_file_resolver | - | - | not modelled |
| transform/rigid_transform, transform | RG_Model | Rigid2, Rigid3, angle conversions over the reals | parsing from Lua; proto conversions |
| transform/transform_interpolation_buffer, timestamped_transform | TIB_Model, C3_Model | buffer; interpolation opaque in TIB, slerp over the reals in C3 | proto conversions |
| mapping/probability_values, value_conversion_tables | PV_Model | all functions in binary32 | caching of tables by pointer |
| mapping/2d/grid_2d, probability_grid, map_limits, xy_index | G2_Model | all methods but DrawToSubmapTexture | coordinates exact rationals; int overflow of sizes |
| mapping/2d/probability_grid_range_data_inserter_2d, internal/2d/ray_to_pixel_mask | INS_Model, RTP_Model | Insert, CastRays, GrowAsNeeded; RayToPixelMask | coordinates exact rationals |
| mapping/2d/submap_2d, 3d/submap_3d, submaps.h | ASM_Model | ActiveSubmaps2D/3D, insertion and finishing | grids opaque; proto and textures left out |
| mapping/internal/2d/tsd_value_converter, tsdf_2d, tsdf_range_data_inserter_2d, normal_estimation_2d | TSD_Model, TI_Model, NE_Model | converter and grid; UpdateCell (binary32); the whole inserter (reals, without the 16-bit values); EstimateNormals (reals) | drawing; options from Lua |
| mapping/internal/3d/rotation_parameterization.h | RP_Model | both functors (reals) | - |
| mapping/3d/hybrid_grid.h | HG_Model, IG_Model | FlatGrid, NestedGrid, DynamicGrid, HybridGrid with iterators and proto; IntensityHybridGrid | - |
| mapping/3d/range_data_inserter_3d | I3_Model | Insert in binary32 | Lua options |
| mapping/internal/2d/scan_matching/fast_correlative_scan_matcher_2d, correlative_scan_matcher_2d | FCSM2D_Model, FCSM_Float, SW_Model | precomputation grids, bounds, branch and bound, scores; windows, rotated scans and their cells over the reals | std::sort any sorting |
| mapping/internal/2d/scan_matching/real_time_correlative_scan_matcher_2d | RT_Model, TSD_Model, SW_Model | search window, candidates, scores, maximum; rotated scans over the reals | - |
| mapping/internal/2d/scan_matching/interpolated_tsdf_2d.h, tsdf_match_cost_function_2d, occupied_space_cost_function_2d | I2_Model | all, over the reals, with Jets | the ceres cubic interpolator by its documentation |
| mapping/internal/*/scan_matching/*_delta_cost_functor_* | C3_Model | all, over the reals | - |
| mapping/internal/3d/scan_matching/fast_correlative_scan_matcher_3d, precomputation_grid_3d | FCSM3D_Model, SW_Model | all; the rotations and windows over the reals | rotational and low resolution scores opaque in FCSM3D |
| mapping/internal/3d/scan_matching/real_time_correlative_scan_matcher_3d | SW_Model | all, over the reals | probabilities opaque but positive |
| mapping/internal/3d/scan_matching/rotational_scan_matcher | RH_Model | all, over the reals | ties of std::sort |
| mapping/internal/3d/scan_matching/interpolated_grid.h, occupied_space_cost_function_3d, intensity_cost_function_3d | IG_Model | all, over the reals, with Jets | - |
| mapping/internal/*/scan_matching/ceres_scan_matcher_* | - | - | the solver is not modelled, only its cost functions |
| mapping/internal/optimization/cost_functions/* | CF_Model, C3_Model | all; Jacobians of the 2D SPA cost | CreateAutoDiffCostFunction wrappers |
| mapping/internal/optimization/optimization_problem_2d | OP_Model | data, members, construction of the problem, storing the result | poses and the solver opaque |
| mapping/internal/optimization/optimization_problem_3d | O3_Model | the IMU terms of Solve | everything else |
| mapping/internal/constraints/constraint_builder_2d | CB_Model | all critical sections | result of scan matching |
| mapping/internal/2d/pose_graph_2d | PG_Model, WQ_Model, SL_Model | submaps, nodes, constraints, states, work queue, trimming, loading | poses and readings opaque; histograms and metrics left out |
| mapping/internal/3d/pose_graph_3d, constraint_builder_3d | - | - | not modelled; their structure is that of the 2D classes |
| mapping/pose_graph, pose_graph_trimmer, internal/pose_graph_data.h | PG_Model, SL_Model | ToProto, FromProto, PureLocalizationTrimmer | options |
| mapping/internal/2d/overlapping_submaps_trimmer_2d | OST_Model | all | poses and coverage of cells as given cells |
| mapping/internal/connected_components, trajectory_connectivity_state | Conn_Model | all methods | int overflow of counts |
| mapping/internal/range_data_collator | RDC_Model | all | point times as an ordered type, binary32 in TM |
| mapping/pose_extrapolator, imu_tracker | PE_Model | all queues and decisions | rotations and vectors opaque |
| mapping/imu_tracker, internal/eigen_quaterniond_from_two_vectors, internal/3d/imu_integration.h | IM_Model | all | real numbers; the SVD for opposite vectors opaque |
| mapping/internal/2d/local_trajectory_builder_2d, motion_filter | LTB_Model | AddRangeData, AddAccumulatedRangeData, filter | scan matching and submaps opaque; metrics |
| mapping/internal/3d/local_trajectory_builder_3d, imu_based_pose_extrapolator | - | - | not modelled |
| mapping/map_builder, io/internal/mapping_state_serialization, io/proto_stream_deserializer | SL_Model | LoadState, SerializeState, deserializer | grids, poses and readings opaque |
| mapping/submaps.h, mapping/3d/submap_3d (textures), io/submap_painter | TX_Model | log odds, textures of 2D and 3D grids, unpacking, pixels, matrices, bounding box | Cairo by its documentation, without compositing; gzip; DeserializeAndFillSubmapSlices |
| io/proto_stream | PS_Model | framing on bytes | gzip and protobuf as invertible coders |
| io/points_batch, filtering, sampling, counting and outlier removing processors, color.h | IO_Model | all | writers and other processors left out |
| mapping/detect_floors | DF_Model | all | arithmetic of heights and lengths arbitrary |
| io: file_writer, ply_writing_points_processor, pcd_writing_points_processor | FW_Model | all | no failing writes; next_ left out |
| io: image, xray_points_processor | XR_Model | pixels, rotation; aggregation and pictures over the reals | Cairo, PNG; drawing of trajectories; dictionary |
| io/serialization_format_migration | MG_Model | migration of submap histograms over the reals | MigrateStreamVersion1ToVersion2, which loads and writes a map |
| io: xyz, hybrid and probability grid writers | - | - | not modelled |
| cloud/internal/local_trajectory_uploader | LTU_Model | queue, batches, recovery, shutdown | gRPC calls succeed or fail arbitrarily |
| ground_truth: autogenerate_ground_truth, compute_relations_metrics_main | GT_Model | all computations, over the reals | files, flags, printing |
| cloud/internal/map_builder_server (OnLocalSlamResult), sensor/serialization, mapping/internal/submap_controller, local_slam_result_2d/3d | SC_Model | indices and messages of submaps, receiving objects, registration in pose_graph_2d | contents of submaps, translation of trajectory ids; other messages |
| metrics/histogram.cc | BB_Model | FixedWidth, ScaledPowersOf in binary64 | the histogram without effect; observing |
| cloud: rest of the server, handlers, stubs; rest of metrics; ground_truth/relations_text_file | - | - | not modelled |

## Axioms per theorem

As printed by `Print Assumptions`.  "Real-number axioms" stands for
`ClassicalDedekindReals.sig_forall_dec`, `ClassicalDedekindReals.sig_not_dec`,
`FunctionalExtensionality.functional_extensionality_dep` and
`Classical_Prop.classic`, all from the standard library; they enter through
`Reals` and Flocq.

* `Properties_ASM.v`
  * no axioms: C23_protocol, C23_submaps, C23_finished_refuses
* `Properties_BB.v`
  * no axioms: C95_checks, C95_infinite, C95_negative, C95_multiples_refuted
  * real-number axioms: C95_powers, C95_ends_refuted, C95_widths
* `Properties_BQ.v`
  * no axioms: C07_fifo, C07_blocking
* `Properties_C3.v`
  * real-number axioms: C66_spa_zero, C66_spa_gauge, C66_spa_sign, C66_spa_size, C66_rotation, C67_slerp, C67_slerp_ends, C67_slerp_near, C67_slerp_unit_refuted, C67_slerp_frames, C67_slerp_back, C67_slerp_sign, C67_slerp_sign_refuted, C67_interpolate, C67_interpolate2, C67_landmark3, C67_landmark_gauge, C67_landmark2
  * ClassicalDedekindReals.sig_forall_dec, FunctionalExtensionality.functional_extensionality_dep: C66_acceleration, C66_deltas
* `Properties_CB.v`
  * no axioms: C46_reports, C46_all_finished, C46_bounded, C46_stops, C46_destructor, C46_late_search_refuted, C46_unended_refuted, C46_delete_refuted, C46_two_callbacks_refuted
* `Properties_CF.v`
  * real-number axioms: C64_normalize, C64_autodiff, C64_jacobian, C64_jacobian_refuted, C64_zero, C64_double
  * real-number axioms without `Classical_Prop.classic`: C64_residuals, C64_gauge
  * no axioms: C64_double_refuted
* `Properties_CPC.v`
  * real-number axioms: C36_accepts, C36_round_trip, C36_rejects, C36_error, C36_recompress, C36_half_step_refuted, C36_recompress_refuted
* `Properties_Conn.v`
  * no axioms: C28_transitively_connected, C28_components, C28_component, C28_counts, C28_no_abort, C29_symmetric, C29_join, C29_update, C29_connected, C29_no_abort, C29_connect_tracks_refuted
* `Properties_DF.v`
  * no axioms: C82_spans, C82_spans_jump, C82_length, C82_levels, C82_floors, C82_abort, C82_single, C82_lost_refuted, C82_twice_refuted, C82_first_refuted
* `Properties_FCSM2D.v`
  * no axioms: C39_line, C39_precomputation_exact, C39_width_one, C41_shrink_no_loss, C38_branch_and_bound, C38_deterministic
  * real-number axioms: C38_float, C38_probability_cells
* `Properties_FCSM3D.v`
  * real-number axioms: C40_branch_and_bound, C40_float, C40_precomputed, C40_border_aborts, C40_room_refuted
* `Properties_FRS.v`
  * real-number axioms: C08_ratio, C08_extremes, C08_refuses
  * ClassicalDedekindReals.sig_forall_dec, FunctionalExtensionality.functional_extensionality_dep: C08_exact_refuted
* `Properties_FW.v`
  * no axioms: C81_ply, C81_ply_abort, C81_pcd, C81_pcd_short, C81_pcd_mixed_refuted, C81_ply_empty_refuted, C81_comment_refuted
* `Properties_G2.v`
  * real-number axioms: C15_tables_good, C15_update_once, C15_known, C17_grow, C18_crop, C19_roundtrip
  * no axioms: C17_border_refuted, C19_pending_aborts, C19_legacy_defaults, C20_center, C20_interior, C20_contained
* `Properties_GT.v`
  * real-number axioms without `Classical_Prop.classic`: C83_covered, C83_straight, C84_statistics, C84_lines, C84_few
  * no axioms: C83_representatives, C84_lookup
  * real-number axioms: C83_relations, C83_agreement, C83_trimmed_refuted, C84_frame, C84_zero, C84_swap, C84_swap_refuted, C84_errors, C84_self, C84_self_refuted
* `Properties_HG.v`
  * no axioms: C24_map, C24_abort, C24_grow, C25_iterator
  * real-number axioms: C15_tables_good_3d, C15_update_once_3d, C15_set_during_update_refuted, C26_roundtrip, C26_proto
* `Properties_HT.v`
  * no axioms: C92_window, C93_float_refuted
  * real-number axioms without `Classical_Prop.classic`: C92_rate, C92_periodic, C92_deviation, C92_statistics, C92_numbers_refuted
  * ClassicalDedekindReals.sig_forall_dec, FunctionalExtensionality.functional_extensionality_dep: C92_empty, C93_histogram, C93_other
* `Properties_I2.v`
  * ClassicalDedekindReals.sig_forall_dec, FunctionalExtensionality.functional_extensionality_dep: C69_lower, C70_padding, C70_no_overflow
  * real-number axioms without `Classical_Prop.classic`: C69_cost_bounds, C69_cost_at_centre, C69_unknown, C69_weight_bounds, C69_weight_at_centre, C69_weight_lipschitz, C69_derivative, C69_defined, C69_residuals, C69_bounded, C69_equal_weights, C69_jacobian, C69_border_refuted, C69_jump_refuted, C70_unpadded, C70_interpolates, C70_bounds, C70_off_map, C70_sign_refuted
  * real-number axioms: C69_proportions, C70_jacobian
* `Properties_I3.v`
  * real-number axioms: C27_insert, C52_center
  * no axioms: C27_samples, C27_sample_exists, C27_far_aborts, C53_intensity, C53_insert, C53_beside
* `Properties_IG.v`
  * ClassicalDedekindReals.sig_forall_dec, FunctionalExtensionality.functional_extensionality_dep: C68_lower, C68_average
  * real-number axioms without `Classical_Prop.classic`: C68_interpolates, C68_bounds, C68_derivative, C68_chain_rule, C68_flat, C68_monotone, C68_occupied_space, C68_occupied_space_at, C68_intensity
  * real-number axioms: C68_continuous_derivative, C68_lipschitz, C68_jacobian, C68_intensity_jacobian, C68_curve
  * no axioms: C68_intensity_required
* `Properties_IM.v`
  * real-number axioms without `Classical_Prop.classic`: C79_svd, C79_unit, C79_advance, C79_backwards, C79_advance_twice, C79_rate, C79_level, C79_checks, C79_first, C79_still, C80_motion, C80_checks, C80_chain, C80_cut, C80_cut_rotation, C80_cut_refuted, C80_extrapolate, C80_rest, C80_rest_refuted, C80_two_poses, C80_two_poses_same_time, C80_duplicate_refuted
  * real-number axioms: C79_average, C79_accepted_refuted
  * no axioms: C80_duration
  * ClassicalDedekindReals.sig_forall_dec, FunctionalExtensionality.functional_extensionality_dep: C80_rest_error
* `Properties_INS.v`
  * real-number axioms: C22_insert
* `Properties_IO.v`
  * no axioms: C47_remove_points, C48_round_trip, C48_nan_refuted, C54_pipeline, C54_two_multi_pass
  * real-number axioms: C48_range, C48_nearest, C48_monotone
* `Properties_LPD.v`
  * no axioms: C49_exactly_once, C49_destroy, C49_uncounted, C49_numeral_refuted, C49_read, C49_typed
* `Properties_LTB.v`
  * no axioms: C57_no_abort, C57_placed, C57_last_point, C57_groups, C57_motion_filter, C57_matched_pose_refuted, C57_last_point_refuted
  * real-number axioms: C57_clock
* `Properties_LTU.v`
  * no axioms: C50_accounted, C50_batches, C50_lossless, C50_resumes_at_submap, C50_resume_refuted, C50_shutdown_ends, C50_shutdown_refuted
* `Properties_MG.v`
  * real-number axioms: C89_sum, C89_turn, C89_order, C89_unchanged, C89_sizes_refuted
* `Properties_Maps.v`
  * no axioms: C09_refines_finite_map, C09_iteration, C09_trajectory, C09_iteration_int_max_refuted, C10_lower_bound, C11_ids_never_reused_refuted, C11_no_reuse_while_nonempty, C12_trim, C12_trim_sequence, C12_trim_no_abort, C12_append
* `Properties_NE.v`
  * real-number axioms: C87_each, C87_normal, C87_facing, C87_wall, C87_turned, C87_duplicate_refuted, C87_sight_refuted
  * real-number axioms without `Classical_Prop.classic`: C87_samples
* `Properties_O3.v`
  * real-number axioms without `Classical_Prop.classic`: C85_succeeds, C85_terms, C85_which, C85_trajectories, C85_constant, C85_turning, C85_short_refuted
* `Properties_OMQ.v`
  * no axioms: C01_time_order, C01_legal_no_abort, C01_static_legal, C01_terminates, C01_time_key_order, C01_late_queue_refuted, C02_conservation, C02_drop_only_before_start, C02_exact_delivery, C03_flush_drains, C03_blocker, C03_blocker_unset_refuted, C51_deterministic, C04_trajectory_collator_isolation, C04_collator_isolation_refuted
* `Properties_OP.v`
  * no axioms: C59_aborts, C59_terms, C59_blocks, C59_result, C59_frozen, C59_changes, C59_trim, C59_trim_refuted, C59_deleted_refuted, C59_pairing_refuted
* `Properties_OST.v`
  * no axioms: C31_trim, C31_freshness, C31_wrap_refuted, C31_empty_refuted
* `Properties_PE.v`
  * no axioms: C56_tracker, C56_history, C56_initialized, C56_aborts, C56_in_order, C56_newest_pose_refuted, C56_equal_imu_times_refuted, C56_equal_odometry_times_refuted
* `Properties_PG.v`
  * no axioms: C42_integrity, C42_read_constraints, C42_trim, C42_unchecked_refuted, C30_proper, C30_trim, C30_finished, C44_final, C44_refuses, C44_final_refuted, C44_delayed_refuted, C44_pending_data_refuted
* `Properties_PGP.v`
  * no axioms: C55_period, C44_closed_refuses
* `Properties_PGS.v`
  * no axioms: C55_session, C55_optimized, C55_front_end, C55_last_submap_refuted, C55_lookup_refuted, C55_pure_delete_refuted, C55_delete_twice_refuted, C55_delete_active_refuted, C55_finish_twice_refuted, C44_deleted_gone, C44_deletes
* `Properties_PS.v`
  * no axioms: C37_roundtrip, C37_prefix, C37_truncation_undetected
* `Properties_PV.v`
  * real-number axioms: C14_roundtrip, C14_bounds, C14_strictly_monotone, C14_complement, C14_involution, C14_range, C14_quantize_monotone, C16_hit, C16_miss, C16_range, C16_tables_monotone
  * no axioms: C14_marked_unknown_refuted, C14_nan_refuted, C16_default_unknown, C16_certain_hit_refuted
* `Properties_RDC.v`
  * no axioms: C32_collate, C32_monotone, C32_future_point_refuted, C32_cross_sensor_refuted
* `Properties_RG.v`
  * real-number axioms without `Classical_Prop.classic`: C65_group3, C65_action3, C65_product_normalized, C65_inverse_refuted, C65_inverse_valid, C65_group2, C65_action2, C65_of_angle_axis
  * real-number axioms: C65_embed, C65_yaw, C65_yaw_refuted, C65_angle, C65_vector_round_trip, C65_quaternion_round_trip, C65_vector_length, C65_sign, C65_sign_refuted
* `Properties_RH.v`
  * real-number axioms without `Classical_Prop.classic`: C71_direction, C71_opposite_refuted, C72_interpolates, C72_full, C72_group, C72_compose_refuted, C72_mass, C72_continuous, C72_score, C72_largest, C72_empty, C72_turned_both, C72_found, C72_scores
  * real-number axioms: C71_histogram, C71_sorted, C71_turned, C71_turn_refuted
  * ClassicalDedekindReals.sig_forall_dec, FunctionalExtensionality.functional_extensionality_dep: C71_slices
* `Properties_RP.v`
  * real-number axioms: C88_yaw_only, C88_yaw_reaches, C88_reaches, C88_yaw_refuted
  * real-number axioms without `Classical_Prop.classic`: C88_constant_yaw, C88_unit_refuted, C88_unit_error
* `Properties_RT.v`
  * no axioms: C63_candidates, C63_negative_window, C63_empty_scan, C63_shift, C63_offset, C63_orientation, C63_shift_refuted
  * real-number axioms: C63_probability_score, C63_match, C63_not_worse
* `Properties_RTP.v`
  * no axioms: C21_ray, C21_symmetric
* `Properties_SC.v`
  * no axioms: C94_single, C94_received, C94_complete, C94_recovery, C94_recovery_3d, C94_gap_refuted, C94_uploader_refuted, C94_trajectories_refuted, C94_lost_refuted
* `Properties_SL.v`
  * no axioms: C45_loads, C45_roundtrip, C45_options, C45_session, C45_fresh, C45_finished_empty_refuted, C45_deleted_landmark_refuted, C45_early_data_refuted, C45_written_meanwhile_refuted, C45_swapped_options_refuted
* `Properties_SW.v`
  * real-number axioms: C73_defined, C73_step, C73_step_largest, C73_neighbours, C73_cover, C73_full_cover, C74_angles, C74_all_around, C74_step, C74_step_largest, C74_kept, C74_not_dropped, C75_transforms, C75_step, C75_score, C75_empty, C75_match, C75_not_worse
  * real-number axioms without `Classical_Prop.classic`: C73_scans, C73_estimate, C73_estimate_refuted, C74_pose, C74_zero, C74_full_linear
  * ClassicalDedekindReals.sig_forall_dec, FunctionalExtensionality.functional_extensionality_dep: C73_full_centre
* `Properties_TI.v`
  * real-number axioms without `Classical_Prop.classic`: C86_grow, C86_ray, C86_on_ray
  * real-number axioms: C86_succeeds, C86_cells, C86_range, C86_sorter, C86_height_refuted
  * ClassicalDedekindReals.sig_forall_dec, FunctionalExtensionality.functional_extensionality_dep: C86_mean
* `Properties_TIB.v`
  * no axioms: C13_contents, C13_push, C13_lookup, C13_trajectory
* `Properties_TM.v`
  * real-number axioms: C58_roundtrip, C58_monotone, C58_extrapolator, C58_point_times, C58_shift
  * no axioms: C58_roundtrip_refuted
* `Properties_TP.v`
  * no axioms: C05_no_crash, C05_once, C05_order, C06_progress, C06_terminates, C06_all_done, C06_shutdown, C06_completes
* `Properties_TSD.v`
  * real-number axioms: C60_roundtrip, C60_total, C60_monotone, C60_strict, C60_accuracy, C60_values, C61_set_once, C61_set_aborts, C61_read, C61_grow, C61_crop, C61_proto, C62_update, C62_update_skips, C62_score
  * no axioms: C60_bounds_refuted, C62_score_offset, C62_score_refuted
* `Properties_TX.v`
  * real-number axioms: C76_log_odds, C76_monotone, C76_ends, C76_symmetric, C76_symmetric_refuted, C76_texel, C77_probability, C78_texture, C78_empty, C78_position_refuted
  * no axioms: C76_distinct, C78_once
  * real-number axioms without `Classical_Prop.classic`: C76_tsdf, C77_pixels, C77_tsdf, C77_position, C77_position_refuted, C77_inside, C77_painted, C77_all_painted, C77_all_painted_refuted, C77_empty
  * ClassicalDedekindReals.sig_forall_dec, FunctionalExtensionality.functional_extensionality_dep: C78_voxels, C78_xray
* `Properties_VF.v`
  * ClassicalDedekindReals.sig_forall_dec, FunctionalExtensionality.functional_extensionality_dep: C33_one_per_voxel, C33_idempotent, C33_cloud, C34_keys
  * real-number axioms: C34_refuted, C35_adaptive, C35_full_cloud_refuted
  * no axioms: C35_terminates_refuted
* `Properties_WQ.v`
  * no axioms: C43_order, C43_no_abort, C43_terminates, C43_progress, C43_wait, C43_wait_refuted, C43_two_waits_refuted
* `Properties_XR.v`
  * no axioms: C90_pixels, C90_rotate, C90_four
  * real-number axioms: C91_pictures, C91_thickest, C91_thin, C91_visible_refuted
