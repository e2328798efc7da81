{"id": "C01", "title": "Collated sensor data is delivered in global time order", "statement": "If every sensor delivers its data in non-decreasing time order and no queue is registered after data newer than its own first item has already been delivered, then the sequence of callbacks fired by the ordered multi queue has non-decreasing timestamps and the internal time-order assertion never aborts the process.", "quantifier": "all numbers of trajectories and sensors, all interleavings of AddQueue/Add/MarkQueueAsFinished/Flush calls, all timestamps (ties included)", "why_tests_cant": "The merge depends on the arrival interleaving of arbitrarily many queues; tests exercise a handful of fixed interleavings of three queues.", "anchors": ["cartographer/sensor/internal/ordered_multi_queue.cc: OrderedMultiQueue::Dispatch, Add, AddQueue, MarkQueueAsFinished, Flush"]}
{"id": "C02", "title": "Collation loses, duplicates and reorders nothing after a trajectory has started", "statement": "For each (trajectory, sensor) queue the delivered items are a subsequence of the added items, in order and without repetition; every item added and not delivered is either still waiting or was dropped, and only items strictly older than the common start time of their trajectory are ever dropped.", "quantifier": "all histories of queue operations, all payloads", "why_tests_cant": "Conservation has to hold for every history; a test can only count items for the histories it replays.", "anchors": ["cartographer/sensor/internal/ordered_multi_queue.cc: OrderedMultiQueue::Dispatch, GetCommonStartTime"]}
{"id": "C03", "title": "Collation blocks exactly on an empty unfinished sensor and Flush drains everything", "statement": "When the queue comes to rest, either every queue is gone, or it names as blocker a queue that is unfinished and is waiting for data (empty, or holding a single item that is older than the common start). After Flush no queue and no undelivered item is left.", "quantifier": "all histories of queue operations", "why_tests_cant": "Absence of stuck data (data held although nothing is missing) quantifies over every reachable state.", "anchors": ["cartographer/sensor/internal/ordered_multi_queue.cc: Dispatch, CannotMakeProgress, Flush, GetBlocker"]}
{"id": "C04", "title": "Collating by trajectory isolates trajectories", "statement": "With the trajectory collator, the sequence of data delivered to one trajectory is a function of the calls addressed to that trajectory only; calls for other trajectories cannot delay, drop or reorder it. With the plain collator this is false: an idle sensor of one trajectory holds back another trajectory.", "quantifier": "all histories of AddTrajectory/AddSensorData/FinishTrajectory/Flush over any number of trajectories", "why_tests_cant": "A non-interference (two-run) property over all histories.", "anchors": ["cartographer/sensor/internal/trajectory_collator.cc: TrajectoryCollator", "cartographer/sensor/internal/collator.cc: Collator"]}
{"id": "C05", "title": "A task runs at most once and only after all its dependencies completed, under every schedule", "statement": "For every interleaving of threads that create tasks, add dependencies, schedule them and execute them on any number of workers, as long as clients keep to the interface (dependencies are added once each, before the task is scheduled, and are weak_ptrs returned by Schedule; a task is scheduled once; the pool is destroyed once and not during an external call): the work item of a task runs at most once, it starts only after the work items of all tasks registered as its dependencies have finished, and none of the CHECKs in Task or ThreadPool fails.", "quantifier": "all dependency graphs, all numbers of worker threads, all interleavings of the critical sections", "why_tests_cant": "Schedules are chosen by the operating system; tests see a vanishing fraction of them.", "anchors": ["cartographer/common/task.cc: Task::AddDependency, AddDependentTask, SetThreadPool, OnDependenyCompleted, Execute", "cartographer/common/thread_pool.cc: ThreadPool::Schedule, NotifyDependenciesCompleted, DoWork"]}
{"id": "C06", "title": "The thread pool never strands a runnable task", "statement": "Under the interface contract of C05, in every reachable state in which some scheduled task has not completed, a step of a worker or of a call in progress is enabled; the number of such steps is bounded by 2 per added dependency, 6 per scheduled task and 1 per worker under every schedule; hence every execution of the pool that can take no further step has executed every scheduled task exactly once, and after the destructor was called all workers have returned and both queues are empty.", "quantifier": "all dependency graphs, worker counts and interleavings", "why_tests_cant": "Deadlock freedom quantifies over all reachable states of a concurrent program.", "anchors": ["cartographer/common/thread_pool.cc: ThreadPool::DoWork, ~ThreadPool", "cartographer/common/task.cc"]}
{"id": "C07", "title": "The blocking queue is a bounded FIFO", "statement": "Every interleaving of Push, PushWithTimeout, Pop, PopWithTimeout, Peek and Size calls behaves as one FIFO sequence: pops return exactly the pushed items in push order, each once; the number of stored items never exceeds the capacity; a timed-out call changes nothing.", "quantifier": "all interleavings of the operations of any number of producers and consumers, any capacity (0 meaning unbounded)", "why_tests_cant": "Linearizability is a statement about all interleavings.", "anchors": ["cartographer/common/internal/blocking_queue.h: BlockingQueue"]}
{"id": "C08", "title": "The fixed ratio sampler passes the configured fraction", "statement": "After n <= 2^53 pulses of a sampler with ratio r in [0,1] the number of pulses that returned true is ceil(r*n) or one less, so no prefix deviates from r*n by a full sample or more; ratio 1 passes everything, ratio 0 nothing, other ratios are refused. (Exactly ceil(r*n) is false with IEEE doubles, refuted for r=0.1, n=10.)", "quantifier": "all double ratios, all numbers of pulses up to 2^53", "why_tests_cant": "Unbounded pulse counts and all ratios; the tests try a few ratios for 100 pulses.", "anchors": ["cartographer/common/fixed_ratio_sampler.cc: FixedRatioSampler::FixedRatioSampler, Pulse"]}
{"id": "C09", "title": "MapById behaves as an ordered map with consecutively appended ids", "statement": "Under any sequence of Append, Insert and Trim that does not abort, lookups, sizes and iteration agree with an abstract finite map from (trajectory, index) to data; iteration visits every stored id exactly once in ascending order (for trajectory ids below INT_MAX) and Append returns one more than the largest index of the trajectory.", "quantifier": "all operation sequences, ids and payloads", "why_tests_cant": "The refinement must hold after arbitrarily long histories with gaps created by trimming.", "anchors": ["cartographer/mapping/id.h: MapById::Append, Insert, Trim, Contains, find, SizeOfTrajectoryOrZero, BeginOfTrajectory, EndOfTrajectory, size"]}
{"id": "C10", "title": "Time search in MapById finds the first entry not before the given time", "statement": "For a trajectory whose data times are non-decreasing in the index, lower_bound(trajectory, time) returns the entry with the smallest index whose time is >= time, and the end of the trajectory if there is none, no matter which indices have been trimmed away.", "quantifier": "all index sets (with gaps), all time assignments, all query times", "why_tests_cant": "The binary search walks over index gaps; correctness depends on all gap patterns.", "anchors": ["cartographer/mapping/id.h: MapById::lower_bound, internal::GetTime"]}
{"id": "C11", "title": "Ids handed out by MapById are not reused while the trajectory exists", "statement": "As long as a trajectory keeps at least one entry, an id of that trajectory is never returned again by a later Append, whatever was trimmed in between. Without that proviso the claim is false: trimming the only entry of a trajectory makes the next Append return the first id again.", "quantifier": "all Append/Trim histories", "why_tests_cant": "Requires reasoning about all histories; a counterexample needs a specific trim pattern.", "anchors": ["cartographer/mapping/id.h: MapById::Append, Trim"]}
{"id": "C12", "title": "Trimming sensor data keeps what the remaining nodes need for interpolation", "statement": "When a node is trimmed, for every remaining node of the trajectory the latest sensor datum not after the node time and the earliest one not before it are unchanged; all data outside the closed gap between the neighbouring nodes is untouched; the data of other trajectories is untouched; and removing the last node removes all data of the trajectory.", "quantifier": "all node time sets, sensor time sets, all trimmed nodes and orders of trimming", "why_tests_cant": "Depends on the relative position of arbitrarily many timestamps, with exact coincidences.", "anchors": ["cartographer/sensor/map_by_time.h: MapByTime::Append, Trim, lower_bound"]}
{"id": "C13", "title": "Transform interpolation buffer lookups are bracketed by stored poses", "statement": "Under any sequence of Push, SetSizeLimit and clear, the buffer holds the most recent min(limit, pushed) transforms in time order; Has(t) holds exactly when t lies between the earliest and latest stored times; and then Lookup interpolates between the two stored neighbours of t (returning a stored pose unchanged at its own time) and never aborts.", "quantifier": "all push histories, limits and query times", "why_tests_cant": "Quantifies over all histories and all query times.", "anchors": ["cartographer/transform/transform_interpolation_buffer.cc: Push, SetSizeLimit, RemoveOldTransformsIfNeeded, Has, Lookup"]}
{"id": "C14", "title": "16-bit cell values and probabilities convert without drift", "statement": "For every one of the 32767 known cell values v, converting v to a probability (or correspondence cost) in float32 and back yields v again; the conversion is strictly monotone; the probability-to-cost value mapping is an involution that preserves the update marker; and every float other than NaN, however far out of range, maps to a value in 1..32767, monotonically. (Two corner cases are false and recorded as findings: NaN passes the clamp and its conversion is undefined; the value 2^15, an update marker on an unknown cell, is not preserved.)", "quantifier": "all 65536 cell values and all float32 inputs", "why_tests_cant": "float32 rounding must be right for every value and every float; the tests sweep the values for the mapping between the two encodings, but not for the conversion to floats and back, and compare floats with tolerances.", "anchors": ["cartographer/mapping/probability_values.h: BoundedFloatToValue, ProbabilityToValue, CorrespondenceCostToValue, ProbabilityValueToCorrespondenceCostValue, CorrespondenceCostValueToProbabilityValue", "cartographer/mapping/probability_values.cc: SlowValueToBoundedFloat, PrecomputeValueToBoundedFloat"]}
{"id": "C15", "title": "Each cell is updated at most once per range data insertion", "statement": "Between two FinishUpdate calls, any sequence of ApplyLookupTable calls changes each cell at most once (the first call returns true, all later ones false), all cells changed are reported, and after FinishUpdate every cell holds an unmarked value in 0..32767, with exactly the touched cells known in addition to those known before.", "quantifier": "all grids, all table pairs, all sequences of cell accesses", "why_tests_cant": "A frame property over all access sequences.", "anchors": ["cartographer/mapping/2d/probability_grid.cc: ProbabilityGrid::ApplyLookupTable", "cartographer/mapping/2d/grid_2d.cc: Grid2D::FinishUpdate", "cartographer/mapping/3d/hybrid_grid.h: HybridGrid::ApplyLookupTable, FinishUpdate"]}
{"id": "C16", "title": "A hit never lowers and a miss never raises an occupancy value", "statement": "For all float32 odds o with 1 <= o <= 2^64, the table built for o takes every known cell value to a value of at least as high a probability, and for 0 <= o <= 1 to one of at most as high a probability, in both the probability and the correspondence cost encoding; entries never leave 1..32767 once the marker is removed. All these tables are also monotone in the cell value, and for the default hit and miss probabilities they map unknown cells to the hit/miss probability itself. (hit_probability = 1 is accepted by the options but makes every entry undefined: finding.)", "quantifier": "all float32 odds in the range and all 32768 cell values; float32 arithmetic with rounding", "why_tests_cant": "Float rounding could break monotonicity at isolated values among 32768 and for particular odds; the tests apply given odds to sampled probabilities and compare the two encodings with tolerances.", "anchors": ["cartographer/mapping/probability_values.cc: ComputeLookupTableToApplyOdds, ComputeLookupTableToApplyCorrespondenceCostOdds"]}
{"id": "C17", "title": "Growing a 2D grid keeps the map", "statement": "GrowLimits terminates with the requested point inside the grid, keeps the resolution, and every point of the plane that is not exactly on the line of the old maximum border has the value afterwards that it had before (unknown if it was outside); the known-cell bounding box moves with the cells. (A point exactly on the old maximum border is outside before and inside an old cell afterwards: finding.)", "quantifier": "all grids, contents and requested points (exact arithmetic)", "why_tests_cant": "Index shifting across repeated doubling has to be right for all sizes and points.", "anchors": ["cartographer/mapping/2d/grid_2d.cc: Grid2D::GrowLimits", "cartographer/mapping/2d/map_limits.h: MapLimits"]}
{"id": "C18", "title": "Cropping a finished submap preserves every known cell", "statement": "The cropped grid contains exactly the bounding box of the known cells; every known cell keeps its 16-bit value bit for bit through the probability round trip done in float32, every unknown cell stays unknown, and the world position of each cell is unchanged; an empty grid crops to a 1x1 unknown grid.", "quantifier": "all grids and contents", "why_tests_cant": "Combines a box invariant over all update histories with a bit-exact float argument for all 32767 values.", "anchors": ["cartographer/mapping/2d/probability_grid.cc: ProbabilityGrid::ComputeCroppedGrid, SetProbability, GetProbability", "cartographer/mapping/2d/grid_2d.cc: ComputeCroppedLimits"]}
{"id": "C19", "title": "2D grids survive serialization", "statement": "For every grid with no update in progress, reading back the serialized message yields a grid with the same limits, cells, known-cell box and cost bounds.", "quantifier": "all grids", "why_tests_cant": "Round trip over all contents, including the empty box and the legacy default of the cost bounds.", "anchors": ["cartographer/mapping/2d/grid_2d.cc: Grid2D::ToProto, Grid2D(proto)", "cartographer/mapping/2d/probability_grid.cc: ToProto"]}
{"id": "C20", "title": "Cell indices and world coordinates correspond", "statement": "In exact arithmetic the centre of every cell lies in that cell; every point with coordinates strictly inside a cell gets that cell's index; a point is contained in the map limits exactly if it lies strictly inside the rectangle spanned by them.", "quantifier": "all map limits, indices and points", "why_tests_cant": "Requires all points, including those on cell borders where rounding half away from zero matters.", "anchors": ["cartographer/mapping/2d/map_limits.h: MapLimits::GetCellIndex, GetCellCenter, Contains", "cartographer/common/port.h: RoundToInt"]}
{"id": "C21", "title": "Ray casting visits exactly the pixels the ray crosses", "statement": "For any two subpixel positions, the ray-to-pixel-mask returns precisely the pixels whose interior is crossed by the segment between the two subpixel centres, each once, starting and ending at the pixels of the endpoints, with consecutive pixels touching; its internal assertions never fail; the result is the same set when the endpoints are swapped.", "quantifier": "all pairs of non-negative subpixel coordinates and all subpixel scales", "why_tests_cant": "Geometric exactness for all slopes and offsets; the tests check a handful of lines at given scales.", "anchors": ["cartographer/mapping/internal/2d/ray_to_pixel_mask.cc: RayToPixelMask"]}
{"id": "C22", "title": "Inserting a scan marks every return as hit and every crossed cell as miss at most once", "statement": "After inserting range data into a probability grid, each cell containing a return has received exactly the hit update, each other cell crossed by a ray has received exactly one miss update, all other cells are unchanged, and no update marker is left.", "quantifier": "all scans and grids", "why_tests_cant": "Interaction of arbitrarily many overlapping rays.", "anchors": ["cartographer/mapping/2d/probability_grid_range_data_inserter_2d.cc: CastRays, ProbabilityGridRangeDataInserter2D::Insert"]}
{"id": "C23", "title": "Active submaps follow the two-submap protocol", "statement": "For every number of insertions with N = num_range_data >= 1: there are at most two active submaps; every insertion returns one or two submaps, all of which receive the data; a submap is finished exactly when it holds 2N range data and never receives data afterwards; the submaps are staggered by N; and no CHECK fails (2D and 3D).", "quantifier": "all N >= 1 and all insertion histories", "why_tests_cant": "Inductive protocol over unbounded histories.", "anchors": ["cartographer/mapping/2d/submap_2d.cc: ActiveSubmaps2D::InsertRangeData, AddSubmap, Submap2D::InsertRangeData, Finish", "cartographer/mapping/3d/submap_3d.cc: ActiveSubmaps3D::InsertData, AddSubmap"]}
{"id": "C24", "title": "The hybrid grid is a total map from voxels to values", "statement": "Writing a voxel changes the value read at that voxel and at no other, growing the grid changes no value, unwritten voxels read as the default, and every index whose components lie in -8192..8191 can be written; writing an index outside aborts. (Reading an index with a component above 2^31-8193 may overflow int.)", "quantifier": "all sequences of writes and reads at all integer indices", "why_tests_cant": "Nested storage with recentring growth must be right for every index and growth order.", "anchors": ["cartographer/mapping/3d/hybrid_grid.h: FlatGrid, NestedGrid, DynamicGrid::value, mutable_value, Grow, ToFlatIndex, To3DIndex"]}
{"id": "C25", "title": "Iterating a hybrid grid visits each non-default voxel exactly once", "statement": "The iterator yields exactly the pairs of index and value of all voxels whose value differs from the default, without repetition.", "quantifier": "all hybrid grids", "why_tests_cant": "Needs all shapes of the nested storage.", "anchors": ["cartographer/mapping/3d/hybrid_grid.h: FlatGrid::Iterator, NestedGrid::Iterator, DynamicGrid::Iterator"]}
{"id": "C26", "title": "3D grids survive serialization", "statement": "For every hybrid grid with no update in progress and in-range values, serializing and reading it back yields a grid with the same value at every voxel, bit for bit, although values pass through float32 probabilities.", "quantifier": "all hybrid grids", "why_tests_cant": "All contents and a bit-exact float argument.", "anchors": ["cartographer/mapping/3d/hybrid_grid.h: HybridGrid::ToProto, HybridGrid(proto), SetProbability"]}
{"id": "C27", "title": "3D free-space insertion never overwrites the hits of the same scan", "statement": "After inserting range data into a 3D grid, every voxel containing a return received exactly the hit update and the voxels on the configured free-space segment in front of it received at most one miss update; sampled miss voxels lie between origin and hit and adjacent samples touch.", "quantifier": "all scans, grids and free-space settings", "why_tests_cant": "Quantifies over all ray directions and lengths (integer truncation in all octants).", "anchors": ["cartographer/mapping/3d/range_data_inserter_3d.cc: InsertMissesIntoGrid, RangeDataInserter3D::Insert"]}
{"id": "C28", "title": "Trajectory connectivity is the equivalence relation generated by the recorded connections", "statement": "After any sequence of Add and Connect, TransitivelyConnected(a,b) holds exactly if a=b or a chain of recorded connections joins them; the reported components partition the added trajectories accordingly, and connection counts are symmetric and equal the number of Connect calls for the pair.", "quantifier": "all Add/Connect histories", "why_tests_cant": "Union-find with path compression must be right for all histories.", "anchors": ["cartographer/mapping/internal/connected_components.cc: ConnectedComponents"]}
{"id": "C29", "title": "Last connection times are symmetric and record when components were joined", "statement": "LastConnectionTime is symmetric in its arguments; joining two components records the time for every newly connected pair; later connections within a component only raise the time of the named pair; a history runs without abort exactly if it connects tracked trajectories only. The documented behaviour that Connect starts tracking untracked trajectories is false: it aborts.", "quantifier": "all histories and times", "why_tests_cant": "Histories over components of arbitrary size; the tests ask for the time of an unknown trajectory, but do not call Connect with one.", "anchors": ["cartographer/mapping/internal/trajectory_connectivity_state.cc: Connect, LastConnectionTime"]}
{"id": "C30", "title": "The pure localization trimmer keeps exactly the newest submaps", "statement": "Each Trim call removes, oldest first, exactly those submaps beyond the configured number to keep (all of them once the trajectory is finished) and nothing else; after finishing, the trajectory is reported deleted and the trimmer is finished.", "quantifier": "all submap counts and configurations", "why_tests_cant": "Holds for all counts and orders of finishing.", "anchors": ["cartographer/mapping/pose_graph_trimmer.cc: PureLocalizationTrimmer::Trim"]}
{"id": "C31", "title": "The overlap trimmer never removes a submap that still covers enough fresh area", "statement": "As long as no submap has 2^16 or more entries in the coverage grid: a submap that is among the freshest covering entries on at least the configured number of cells, however ties are broken, is not removed; one that is on fewer in every order of ties is; only finished submaps whose last insertion time is known are. The insertion time is that of the largest node constrained to the submap. False without the bound (uint16 counters wrap), and the trimmer dereferences begin() of an empty map when all submaps were deleted meanwhile.", "quantifier": "all coverage grids, freshness times and thresholds", "why_tests_cant": "Counter width matters only for large submaps, which tests do not build.", "anchors": ["cartographer/mapping/internal/2d/overlapping_submaps_trimmer_2d.cc: FindSubmapIdsToTrim, ComputeSubmapFreshness"]}
{"id": "C32", "title": "Synchronized range data is monotone and nothing after the start is lost", "statement": "If messages of all sensors arrive in non-decreasing time order, and points within a message are sorted with none later than the message time, then points delivered in an earlier result are not later than points of a later one and each result is sorted; every input point is delivered exactly once, still pending, or was older than the result before; each delivered point keeps its own sensor origin and intensity and its time is shifted to the time of the result. Both conditions are needed: order within each sensor only lets results go back in time, and a point later than its message makes the collator lose the next message of the sensor.", "quantifier": "all message histories over any number of sensors", "why_tests_cant": "Interaction of overlapping message windows over unbounded histories.", "anchors": ["cartographer/mapping/internal/range_data_collator.cc: RangeDataCollator::AddRangeData, CropAndMerge"]}
{"id": "C33", "title": "The voxel filter keeps exactly one point of each occupied voxel", "statement": "For points whose voxel indices fit the key (see C34) and every outcome of the random generator, the output is a subsequence of the input containing exactly one point of every occupied voxel, with its intensity; filtering an already filtered cloud changes nothing.", "quantifier": "all point clouds, resolutions and random choices", "why_tests_cant": "All random outcomes and all clouds.", "anchors": ["cartographer/sensor/internal/voxel_filter.cc: RandomizedVoxelFilterIndices, VoxelFilter"]}
{"id": "C34", "title": "Distinct voxels have distinct keys", "statement": "Two points in different voxels are never treated as being in the same voxel, as long as the voxel indices fit the key: [-2^21, 2^21) for x, [-2^20, 2^20) for y and z. False beyond: at 1/64 m resolution a point 65.5 km away is dropped in favour of one at the origin.", "quantifier": "all integer voxel coordinates", "why_tests_cant": "Needs coordinates near the packing limits.", "anchors": ["cartographer/sensor/internal/voxel_filter.cc: GetVoxelCellIndex"]}
{"id": "C35", "title": "The adaptive voxel filter keeps the requested minimum number of points", "statement": "For max_length in [2^-100, 2^85] and points at most 2^22 max_length away the search ends after at most seven halvings and four bisections. If one of the lengths max_length / 2^k, k <= 7, leaves at least min_num_points points, so does the result, and unless max_length itself does, a length at most 10.0001% larger than the chosen one does not. Otherwise the result is that for max_length / 128 and has fewer points: not, as the comment says, the full cloud. For subnormal max_length the search need not end.", "quantifier": "all clouds and options", "why_tests_cant": "All clouds, including densely clustered ones.", "anchors": ["cartographer/sensor/internal/voxel_filter.cc: AdaptivelyVoxelFiltered, AdaptiveVoxelFilter"]}
{"id": "C36", "title": "Compressed point clouds decompress to the same points within the precision", "statement": "The range check accepts exactly the points all of whose coordinates are below 2^23 raster steps; every cloud of accepted points compresses without aborting and decompresses (also through the proto) to the same number of points, each replaced by its raster point, as a multiset; a cloud with any other finite point aborts. A coordinate x moves by at most 0.501 raster steps plus |x| / 8000000 (half a raster step alone is false beyond 8 km). Compressing the result again gives the same points up to 2097 m from the origin (false beyond 8 km, where points drift).", "quantifier": "all clouds in range", "why_tests_cant": "Bit packing in all octants and block borders.", "anchors": ["cartographer/sensor/compressed_point_cloud.cc: CompressedPointCloud, ReadNextPoint, Decompress"]}
{"id": "C37", "title": "Proto stream files round-trip and a crash truncates to a prefix of records", "statement": "Reading a file written by the stream writer returns exactly the written messages in order and then reports the end; reading any prefix of such a file (as left behind by a crash) returns exactly the messages completely contained in the prefix and then fails, never a corrupted message.", "quantifier": "all message sequences and all crash points", "why_tests_cant": "All truncation points of all files.", "anchors": ["cartographer/io/proto_stream.cc: ProtoStreamWriter, ProtoStreamReader, WriteSizeAsLittleEndian, ReadSizeAsLittleEndian"]}
{"id": "C38", "title": "Loop closure search returns the best match of the whole search window", "statement": "The 2D branch-and-bound matcher returns true exactly if some pose of the discretized search window scores above the minimum, and then returns a pose whose score is the maximum over the entire window, for every order in which equal scores are sorted and every search depth. This includes the float32 rounding of cell values and scores.", "quantifier": "all grids, scans, windows, depths and tie-breakings", "why_tests_cant": "Optimality over exponentially many candidates and all grids.", "anchors": ["cartographer/mapping/internal/2d/scan_matching/fast_correlative_scan_matcher_2d.cc: BranchAndBound, ScoreCandidates, GenerateLowestResolutionCandidates, MatchWithSearchParameters"]}
{"id": "C39", "title": "Precomputed grids bound all scores below them", "statement": "Each precomputation grid holds, for every cell position (including those left of and below the grid), the quantized maximum over the width x width window starting there; the sliding-window assertions never fail.", "quantifier": "all grids, contents and widths (also widths larger than the grid)", "why_tests_cant": "Window maxima for all contents including duplicates of the maximum.", "anchors": ["cartographer/mapping/internal/2d/scan_matching/fast_correlative_scan_matcher_2d.cc: SlidingWindowMaximum, PrecomputationGrid2D"]}
{"id": "C40", "title": "3D loop closure search returns the best acceptable match", "statement": "The 3D branch-and-bound matcher returns the best-scoring pose among all poses of the search window that pass the low-resolution check and exceed the minimum score, and fails exactly if there is none, including when deeper levels are stored at reduced resolution. This holds, and nothing aborts, if the known voxels keep a distance of 2^(min(full_resolution_depth, branch_and_bound_depth) - 1) - 1 from the lower border of the grid; a visible voxel on the lower border aborts the constructor.", "quantifier": "all grids, scans, windows, depths and resolution splits", "why_tests_cant": "As C38, with half-resolution index arithmetic on negative coordinates.", "anchors": ["cartographer/mapping/internal/3d/scan_matching/fast_correlative_scan_matcher_3d.cc: BranchAndBound, ScoreCandidates, DiscretizeScan, PrecomputationGridStack3D", "cartographer/mapping/internal/3d/scan_matching/precomputation_grid_3d.cc: PrecomputeGrid"]}
{"id": "C41", "title": "Shrinking the search window loses no match", "statement": "Any pose of the original window that is outside the shrunk window places every scan point outside the grid, so its score is the minimum possible; the zero offset always stays inside.", "quantifier": "all scans, grids and windows", "why_tests_cant": "All scans and offsets.", "anchors": ["cartographer/mapping/internal/2d/scan_matching/correlative_scan_matcher_2d.cc: SearchParameters::ShrinkToFit"]}
{"id": "C42", "title": "Constraints always refer to existing nodes and submaps", "statement": "In every reachable state of the pose graph every stored constraint refers to a stored node and a stored submap, and every node recorded in a submap is stored, provided AddNodeToSubmap items are only executed for stored nodes (false without this: the item inserts any id, and trimming the submap then throws); so reading the constraints never throws. Trimming a submap removes exactly that submap, the constraints to it, and the nodes belonging to no other submap with their constraints.", "quantifier": "all histories of adding nodes, finishing, trimming and deleting", "why_tests_cant": "Referential integrity over all histories.", "anchors": ["cartographer/mapping/internal/2d/pose_graph_2d.cc: TrimmingHandle::TrimSubmap, ComputeConstraintsForNode, AddSerializedConstraints, constraints"]}
{"id": "C43", "title": "Work items run in submission order, each exactly once, under every schedule", "statement": "Every work item given to the pose graph is executed exactly once, in submission order, never two at a time and by at most one thread of the pool; the queue is gone only when all items have run; left alone, the threads make a bounded number of steps and stop only when every item has run and every WaitForAllComputations has ended. No CHECK of WhenDone fails and no null queue is used, provided that while a thread is in WaitForAllComputations nothing is submitted and no other thread enters it (false otherwise: a work item that asks for an optimization finds the callback of the waiting thread stored); then WaitForAllComputations returns only when every item has run.", "quantifier": "all interleavings of submitting threads, waiting threads, the draining task and optimization callbacks", "why_tests_cant": "Schedules.", "anchors": ["cartographer/mapping/internal/2d/pose_graph_2d.cc: AddWorkItem, DrainWorkQueue, HandleWorkQueue, WaitForAllComputations"]}
{"id": "C44", "title": "Deleting a trajectory is final and safe under every schedule", "statement": "Once a trajectory is reported DELETED it stays deleted and accepts no data, as long as FinishTrajectory and FreezeTrajectory are not called for it again (false otherwise: both change the state); nodes, data and loaded submaps are refused for every trajectory that is finished, deleted or about to be deleted. A client that calls DeleteTrajectory at most once, only after the trajectory is reported FINISHED and not for a trajectory with a pure localization trimmer never makes the pose graph abort by it, however the work queue is scheduled, and a deleted trajectory leaves no submap, node or constraint behind; false if it only calls FinishTrajectory first, because data items still queued check the mark DeleteTrajectory sets at once. The deletion is carried out with the next optimization, whenever that is.", "quantifier": "all call histories and schedules", "why_tests_cant": "Depends on when the background thread drains the queue.", "anchors": ["cartographer/mapping/internal/2d/pose_graph_2d.cc: DeleteTrajectory, FinishTrajectory, FreezeTrajectory, CanAddWorkItemModifying, AddImuData, DeleteTrajectoriesIfNeeded"]}
{"id": "C45", "title": "A saved map can be loaded again and is the same map", "statement": "The stream written by SerializeState for a consistent pose graph is accepted by LoadState exactly if as many trajectories have a submap or node as are listed (known and not deleted) and no trajectory data, and unless loaded frozen no odometry, fixed frame pose or landmark observation, is kept for a trajectory without submap and node.  Then, however the calls of LoadState and the turns of the worker interleave, loading into any map builder aborts nothing and ends with what was there before, unchanged, and the same submaps (all, or those that are finished), nodes, constraints between them, landmark poses and observations and sensor data, with the trajectories renumbered one-to-one, all active (or frozen, without constraints and sensor data); the nodes recorded in a submap are those of its intra-submap constraints; the options are those of the same trajectories if every listed trajectory has a submap.  Every state of a well-behaved mapping session can be saved, and fulfils the conditions if every listed trajectory and every trajectory with data has a submap or node.  False without these conditions: a trajectory finished before its first node, landmark observations of a deleted trajectory, odometry before the first node, or a node added while the file is written make the file unloadable; a trajectory of which only nodes were loaded gets the options of another one when saved again.", "quantifier": "all states of the 2D pose graph, all interleavings while loading, with and without unfinished submaps, frozen or not", "why_tests_cant": "Round trip over all histories (deleted, empty, frozen trajectories) and schedules.", "anchors": ["cartographer/io/internal/mapping_state_serialization.cc: WritePbStream", "cartographer/mapping/pose_graph.cc: PoseGraph::ToProto", "cartographer/mapping/map_builder.cc: MapBuilder::LoadState", "cartographer/io/proto_stream_deserializer.cc"]}
{"id": "C46", "title": "Finished constraint searches are reported exactly once", "statement": "For a client that ends every node before it calls WhenDone, starts nothing while a callback is waiting and deletes scan matchers only between a callback and the next search, under every schedule of the tasks: no CHECK fails, no freed element of constraints_ and no deleted scan matcher is used, each callback receives exactly the successful results of the searches requested since the previous callback was given, in the order they were requested, and at that moment all nodes have been finished and no task is left; left alone the tasks end after at most two events each, and only when every callback has been called; then the destructor does not abort if nothing was requested since. False without these conditions: a search while a callback is waiting (the code only warns) or whose node was not ended writes to freed memory, and deleting a scan matcher between a search and its callback leaves a dangling pointer.", "quantifier": "all interleavings of client calls and tasks, all search outcomes", "why_tests_cant": "Schedules of dependent tasks.", "anchors": ["cartographer/mapping/internal/constraints/constraint_builder_2d.cc: MaybeAddConstraint, MaybeAddGlobalConstraint, NotifyEndOfNode, WhenDone, DispatchScanMatcherConstruction, RunWhenDoneCallback, DeleteScanMatcher, ~ConstraintBuilder2D"]}
{"id": "C47", "title": "Removing points keeps intensities and colors aligned", "statement": "After removing any set of points from a batch, the remaining points keep their order and each still carries its own intensity and color; nothing else is removed.", "quantifier": "all batches and index sets", "why_tests_cant": "All index sets.", "anchors": ["cartographer/io/points_batch.cc: RemovePoints"]}
{"id": "C48", "title": "8-bit color components survive the float round trip", "statement": "For every one of the 256 component values, converting to float and back yields the same value; conversion of any float other than NaN yields a value in 0..255, at most half a step (plus rounding) from the float and monotone in it. For NaN the value is unspecified: Clamp passes it on to lround.", "quantifier": "all 256 values (complete sweep of float32), all floats", "why_tests_cant": "Float rounding at each value.", "anchors": ["cartographer/io/color.h: FloatComponentToUint8, Uint8ComponentToFloat"]}
{"id": "C49", "title": "Configuration dictionaries enforce that every key is read exactly once", "statement": "A reference-counted dictionary is destroyed without abort exactly if every string key of the table that does not look like a number was read exactly once, counting all typed getters; so a configuration read through nested dictionaries without abort had every such key, at any depth, read exactly once; and a typed getter returns exactly if the value is there and of its type (non-negative for GetNonNegativeInt). For string keys that look like numbers (such as \"10\") this is false: they are never checked.", "quantifier": "all key sets and read histories", "why_tests_cant": "All histories.", "anchors": ["cartographer/common/lua_parameter_dictionary.cc: CheckHasKeyAndReference, CheckAllKeysWereUsedExactlyOnceAndReset"]}
{"id": "C50", "title": "Sensor data uploaded to the uplink keeps its order and nothing accepted is lost on an orderly shutdown", "statement": "Data reaches the uplink in the order it was enqueued, in batches of the configured size, each item at most once; without failures what the uplink has is a prefix of what was enqueued; after a loss the upload resumes at a new submap if the connection is ready when recovery is tried. False as first stated: Shutdown drops the unfinished batch and the queue, and after a failed reconnection the upload resumes in the middle of a submap.", "quantifier": "all enqueue histories, connection failures and shutdown points", "why_tests_cant": "Failure and shutdown points.", "anchors": ["cartographer/cloud/internal/local_trajectory_uploader.cc: ProcessSendQueue, TryRecovery, Shutdown"]}
{"id": "C51", "title": "Merged sensor data does not depend on the arrival order", "statement": "If two histories register the same queues, add the same data to each queue in the same per-queue order and end with Flush, the delivered sequences are identical, whatever the interleaving of the arrivals and of finishing single queues.", "quantifier": "all pairs of histories with equal per-queue data", "why_tests_cant": "A two-run property over all interleavings.", "anchors": ["cartographer/sensor/internal/ordered_multi_queue.cc: OrderedMultiQueue", "cartographer/sensor/internal/trajectory_collator.h: class comment (Collator output is deterministic)"]}
{"id": "C52", "title": "The centre of a voxel lies in that voxel", "statement": "For every voxel index with components up to 2^20 and every resolution between 2^-50 and 2^50, GetCellIndex(GetCenterOfCell(index)) returns the index again, in single precision arithmetic.", "quantifier": "all resolutions and indices in the stated ranges", "why_tests_cant": "Float rounding for all resolutions and indices; tests try a handful.", "anchors": ["cartographer/mapping/3d/hybrid_grid.h: HybridGridBase::GetCellIndex, GetCenterOfCell"]}
{"id": "C53", "title": "The intensity of a voxel is the average of the recorded intensities", "statement": "After any sequence of AddIntensity calls GetIntensity of a voxel is the sum, in order, of the intensities recorded there divided by their number, and 0 where nothing was recorded; inserting range data records exactly the returns whose intensity does not exceed the threshold and does not influence the occupancy grid.", "quantifier": "all sequences of additions (fewer than 2^31) and all scans", "why_tests_cant": "Arbitrary sequences interleaved over voxels and grid growth.", "anchors": ["cartographer/mapping/3d/hybrid_grid.h: IntensityHybridGrid", "cartographer/mapping/3d/range_data_inserter_3d.cc: InsertIntensitiesIntoGrid"]}
{"id": "C54", "title": "A multi-pass point pipeline filters consistently over its passes", "statement": "Feeding a stream to a pipeline of range, frame, sampling, counting and outlier-removing processors until Flush stops asking for a restart delivers to the end exactly the points the stages select as functions on the whole stream (the outlier stage with hits and rays of the whole stream, the sampler starting afresh in each pass), each once with its intensity and color, after one pass, or three if there is an outlier stage; counting stages report one pass. Two outlier stages abort.", "quantifier": "all pipelines, streams and stage parameters", "why_tests_cant": "State carried over between passes; every stage order.", "anchors": ["cartographer/io/outlier_removing_points_processor.cc: Process, Flush", "cartographer/io/fixed_ratio_sampling_points_processor.cc: Process, Flush", "cartographer/io/counting_points_processor.cc: Process, Flush", "cartographer/io/min_max_range_filtering_points_processor.cc: Process", "cartographer/io/vertical_range_filtering_points_processor.cc: Process", "cartographer/io/frame_id_filtering_points_processor.cc: Process"]}
{"id": "C55", "title": "A mapping session never aborts", "statement": "A client that adds nodes to any number of trajectories with the submaps as ActiveSubmaps2D returns them, adds data, finishes each trajectory at most once and adds nothing to it afterwards, deletes finished trajectories without localization trimmer at most once, and adds pure localization trimmers keeping at least two submaps and overlapping submaps trimmers that spare the last submap of each trajectory, never makes the pose graph fail a CHECK or a look-up, for every interleaving of its calls with the work queue, the constraint builder, the optimization and WaitForAllComputations; a node starts an optimization exactly when at least optimize_every_n_nodes nodes were processed before it since the last one. False when one of the conditions is dropped: trimming the last submap of a finished trajectory, asking for the local-to-global transform of a deleted one, deleting a localization trajectory, finishing or deleting twice and deleting an active trajectory all abort.", "quantifier": "all sessions, trajectories, schedules and search results", "why_tests_cant": "The look-ups that fail need particular interleavings of calls, trimming and optimization.", "anchors": ["cartographer/mapping/internal/2d/pose_graph_2d.cc: PoseGraph2D (all methods except those for frozen and deserialized trajectories)", "cartographer/mapping/internal/2d/local_trajectory_builder_2d.cc: InsertIntoSubmap", "cartographer/mapping/pose_graph_trimmer.cc: PureLocalizationTrimmer::Trim"]}
{"id": "C56", "title": "The pose extrapolator loses nothing by trimming its queues", "statement": "For every sequence of AddPose, AddImuData, AddOdometryData, ExtrapolatePose and EstimateGravityOrientation calls with IMU times strictly increasing and odometry times non-decreasing, every answer is the one computed from the whole history of poses, IMU readings and odometry (the extrapolator aborts exactly when that one does), also after InitializeWithImu; calls in order of time never abort once there is a pose. The IMU tracker turns by the last rate for the time since the last event and weighs an acceleration by the time since the one before. False without the conditions: of two IMU readings at the time of a pose the first is dropped, two odometry poses of equal time make a later AddPose abort, and the answer for the time of the newest pose may be an older prediction for that time.", "quantifier": "all call sequences, queue durations and motions", "why_tests_cant": "Which readings are dropped depends on the interleaving of three queues with different trimming rules and three cached trackers.", "anchors": ["cartographer/mapping/pose_extrapolator.cc: PoseExtrapolator", "cartographer/mapping/imu_tracker.cc: ImuTracker::Advance, AddImuLinearAccelerationObservation"]}
{"id": "C57", "title": "The 2D local trajectory builder never aborts on messages in order and groups every merge into one scan", "statement": "For every stream of range data, IMU and odometry messages in order of time (from expected sensors, points of a message sorted and not after it, IMU data only if enabled), LocalTrajectoryBuilder2D never fails a check and its results are in order of time; points are placed by the extrapolated poses for their own times; every scan consists of exactly the returns and misses of the last num_accumulated_range_data merges and no merge is in two scans; a result is inserted exactly if it is not near the last inserted one. If every range data message ends with a point at its own time, so does merged range data, so that the pose the scan is aligned with is for the time of the scan; otherwise a scan measured without error yields the pose of another time. Points at the time of the last result are not placed by its pose but by the prediction made before matching.", "quantifier": "all message streams, sensors, options, motions and scan matchers", "why_tests_cant": "The checks span the collator, the extrapolator and rounding of point times between them; streams interleave several sensors with overlapping time ranges.", "anchors": ["cartographer/mapping/internal/2d/local_trajectory_builder_2d.cc: AddRangeData, AddAccumulatedRangeData, InsertIntoSubmap, AddImuData, AddOdometryData, InitializeExtrapolator", "cartographer/mapping/internal/motion_filter.cc: MotionFilter::IsSimilar"]}
{"id": "C58", "title": "Durations survive conversion to seconds up to one tick", "statement": "For every duration of at most 2^51 ticks (seven years), FromSeconds(ToSeconds(d)) is d or one tick nearer to zero (it does lose a tick, for 21 ticks for one); ToSeconds is monotone, so that the comparison of durations in the pose extrapolator behaves as C56 needs; FromSeconds of a binary32 point time is exactly its number of ticks rounded toward zero; and a point time shifted in binary32 to a merge time not before it is not positive.", "quantifier": "all durations up to 2^51 ticks, all finite binary32 point times (down to -2^40 s for shifting), all shifts up to 2^64 ticks", "why_tests_cant": "Two roundings of binary64 and two of binary32 are composed; the cases in which they lose a tick are scattered.", "anchors": ["cartographer/common/time.cc: FromSeconds, ToSeconds", "cartographer/mapping/internal/range_data_collator.cc: RangeDataCollator::CropAndMerge"]}
{"id": "C59", "title": "The 2D optimization problem consists of exactly the terms it should and is written back completely", "statement": "After every history of changes and optimizations, if node times do not decrease along a trajectory, OptimizationProblem2D::Solve builds a problem of exactly: the given constraints; one term for each landmark sighting that lies between two neighbouring nodes of its trajectory; for each two consecutive nodes (index differing by one) of a trajectory that is not frozen one local and, if odometry covers both times, one odometry term; and one fixed frame term per node whose time is covered by fixed frame poses. Held constant are exactly the first submap, frozen trajectories and frozen landmarks; starting values are the previous global poses. Afterwards blocks held constant are unchanged, all others take the solver's values and nothing else changes. Trimming a node removes the terms of that node and no others, provided that interpolation is exact at its end point and no fixed frame pose is missing (with a missing one it can add a term to another node). Solve aborts exactly if a constraint names a missing submap or node, or a sighting belongs to a trajectory that, like all later ones, has no nodes (which happens when a trajectory with sightings is deleted), or was made at the time of the only node of the last trajectory. The terms are as stated except that a sighting at the time of the only node of a trajectory is tied to a node of another trajectory.", "quantifier": "all histories of the nine modifying members and Solve, all constraints, landmarks, frozen sets, solvers and pose types", "why_tests_cant": "Which terms exist depends on the combination of four data sources with gaps left by trimming; the aborts need a deletion or a trajectory with a single node at the right time.", "anchors": ["cartographer/mapping/internal/optimization/optimization_problem_2d.cc: OptimizationProblem2D, AddLandmarkCostFunctions", "cartographer/mapping/internal/optimization/optimization_problem_3d.cc: AddLandmarkCostFunctions", "cartographer/mapping/id.h: MapById::ConstIterator"]}
{"id": "C60", "title": "The TSD value converter loses nothing but a rounding step, for every truncation distance and maximum weight", "statement": "For every truncation distance T and maximum weight W from 2^-30 to 2^30, every known 16-bit value, with or without update marker, survives conversion to a float distance or weight and back; every binary32 float but NaN becomes a known value; the conversions are monotone, strictly so from values to floats; storing and reading back a finite float changes it, after clamping to [-T, T] or [0, W], by at most T/30000 or W/60000; the float of value v is within T/10^6 of T(v-16384)/16383 or W/10^6 of W(v-1)/32766 and weights are not negative; unknown is read as -T and 0. The documented range [-T, T] of ValueToTSD is not respected: with T = 0.35 the largest value is read as more than T.", "quantifier": "all truncation distances and maximum weights in binary32 from 2^-30 to 2^30, all 16-bit values, all binary32 floats", "why_tests_cant": "The conversion depends on two configured floats; rounding goes the wrong way only for some of them, and there are 2^32 floats and 32767 values for each.", "anchors": ["cartographer/mapping/internal/2d/tsd_value_converter.h: TSDValueConverter", "cartographer/mapping/internal/2d/tsd_value_converter.cc: TSDValueConverter::TSDValueConverter", "cartographer/mapping/value_conversion_tables.cc: SlowValueToBoundedFloat, PrecomputeValueToBoundedFloat"]}
{"id": "C61", "title": "A TSDF2D keeps distances and weights together through updates, growing, cropping and serialization", "statement": "For every TSDF2D reached by any sequence of SetCell, UpdateCell, FinishUpdate and GrowLimits: between two FinishUpdate calls the first store to each cell wins, later ones and all other cells are unaffected, and CellIsUpdated tells exactly the stored cells; SetCell aborts exactly outside the grid or for a NaN at a cell not yet updated; the getters agree, a cell has a distance iff it has a weight, and unknown cells and points outside read as -T with weight 0; GrowLimits terminates, covers the point and keeps both numbers at every place (points on the old maximum border excepted) and aborts exactly during an update; ComputeCroppedGrid keeps both numbers at the same place for every cell, loses no known cell and keeps no superfluous row or column, also in the middle of an update; a finished TSDF2D is reconstructed exactly from its proto and an unfinished one is refused.", "quantifier": "all sequences of operations, grid sizes, truncation distances and maximum weights from 2^-30 to 2^30, all binary32 arguments", "why_tests_cant": "The two vectors are resized and addressed independently and only meet through the update marker; a mismatch needs a particular order of growing, updating and cropping.", "anchors": ["cartographer/mapping/internal/2d/tsdf_2d.cc: TSDF2D", "cartographer/mapping/2d/grid_2d.cc: Grid2D::GrowLimits, Grid2D::FinishUpdate, Grid2D::ToProto"]}
{"id": "C62", "title": "TSDF updates move cells towards the measurement, and TSDF scan matching scores lie between 0 and 1", "statement": "UpdateCell on any reachable TSDF2D, for a measured distance within [-T, T] and an update weight from 2^-60 to 2^60, sets the cell to the weighted average of its distance and the measurement within T/25000 and its weight to the capped sum within W/50000; a known cell's value never moves away from the measurement and overshoots it by at most one quantization step; weights never decrease; no other cell changes. The real time correlative scan matcher's score of a TSDF, for a scan of any length at any offset, lies between 0 and 1 and does not abort, provided the largest and smallest values are not read as distances beyond T; otherwise it can abort (T = 0.35).", "quantifier": "all reachable TSDFs, all cells, measurements and update weights in the stated ranges, all scans of any length and all offsets", "why_tests_cant": "The average is computed by five rounded operations and then quantized; drift away from the measurement and negative scores appear only for particular truncation distances, which tests fix.", "anchors": ["cartographer/mapping/internal/2d/tsdf_range_data_inserter_2d.cc: TSDFRangeDataInserter2D::UpdateCell", "cartographer/mapping/internal/2d/scan_matching/real_time_correlative_scan_matcher_2d.cc: ComputeCandidateScore"]}
{"id": "C63", "title": "The real time correlative scan matcher returns the best candidate of the whole search window", "statement": "For every non-negative window (n cells, N angular steps) with less than 2^31 candidates: every candidate of the window is generated exactly once, ordered by scan, x and y offset, and the count CHECK holds (a negative window aborts); on any reachable probability grid the score of a non-empty scan of any length is greater than 0 and at most 1 and, up to 2^24 points n, within (n+2)2^-24 of the mean probability of its cells (an empty scan aborts); for a probability grid or a TSDF, the candidate returned has the highest discounted score of the window and is the first that has it, and the score returned is not below the score of the initial pose; offsets move cells as the candidate's x and y move points, except for points exactly on a cell boundary; a candidate's orientation is the angle its scan was rotated by.", "quantifier": "all window sizes, all reachable probability grids and TSDFs, all scans of any length, all discounts between 0 and 1", "why_tests_cant": "Tests use a handful of points on one map; saturation of the float sum, ties and off-by-one windows need sizes and coincidences that are not tried.", "anchors": ["cartographer/mapping/internal/2d/scan_matching/real_time_correlative_scan_matcher_2d.cc: RealTimeCorrelativeScanMatcher2D::Match, GenerateExhaustiveSearchCandidates, ScoreCandidates, ComputeCandidateScore", "cartographer/mapping/internal/2d/scan_matching/correlative_scan_matcher_2d.h: SearchParameters, Candidate2D"]}
{"id": "C64", "title": "The 2D pose graph cost is zero exactly at the observed relative pose and its hand-written derivatives are right", "statement": "For all poses, observations and weights, over the reals: automatic differentiation and the analytical cost function have the same residuals and the same Jacobians; the Jacobians are the partial derivatives of the residuals, unless the angular error is half a turn (where none exists); with non-zero weights the residuals are zero iff the end pose is the start pose composed with the observation, up to full turns; moving both poses by the same rigid motion changes nothing. NormalizeAngleDifference ends, in [-pi, pi], having changed the angle by full turns only; in double precision it ends for differences up to 2^50 in [-M_PI, M_PI], exactly up to three times M_PI; not for all doubles: for 2^60 it never ends.", "quantifier": "all poses, observations, weights and angles; all finite doubles up to 2^50", "why_tests_cant": "The unit test compares the two cost functions at one sample; a sign error in one of 18 entries that vanishes there, or an endless loop for large angles, goes unnoticed.", "anchors": ["cartographer/mapping/internal/optimization/cost_functions/spa_cost_function_2d.cc: SpaCostFunction2D, AnalyticalSpaCostFunction2D", "cartographer/mapping/internal/optimization/cost_functions/cost_helpers_impl.h: ComputeUnscaledError, ScaleError", "cartographer/common/math.h: NormalizeAngleDifference"]}
{"id": "C65", "title": "Rigid transforms form a group acting by isometries, and rotation angles, yaws and angle-axis vectors are what their comments say", "statement": "Over the reals: Rigid3 with unit rotations is a group under operator* and inverse(), acting on points by isometries (for the slightly non-unit rotations that IsValid accepts, inverse() is not an inverse, but off by at most 0.81% of the translation); every product is normalized; Rigid2 likewise; Embed3D is a homomorphism and Project2D undoes it up to full turns; GetYaw returns the yaw of roll, pitch and yaw when the pitch is less than a quarter turn (not otherwise); GetAngle is the angle of the rotation, in [0, pi]; AngleAxisVectorToRotationQuaternion turns about the vector by its length; the two conversions undo each other, exactly above their cut-offs and within 1e-8 below; the vector is zero exactly for no rotation, as long as the angle, and independent of the sign of the quaternion except at half turns.", "quantifier": "all transforms, points, rotations and vectors", "why_tests_cant": "Unit tests compare random transforms with angles of at most half a turn within a tolerance; they do not test associativity, the conversion from quaternions to vectors, the cut-offs, or pitches beyond a quarter turn.", "anchors": ["cartographer/transform/rigid_transform.h: Rigid2, Rigid3, operator*, inverse, IsValid", "cartographer/transform/rigid_transform.cc: RollPitchYaw", "cartographer/transform/transform.h: GetAngle, GetYaw, RotationQuaternionToAngleAxisVector, AngleAxisVectorToRotationQuaternion, Project2D, Embed3D"]}
{"id": "C66", "title": "The costs of the 3D pose graph and of the scan matchers measure what they should", "statement": "Over the reals, for unit rotations: the 3D constraint cost is zero exactly if the second pose is the first composed with the observed relative pose, up to the sign of the quaternion; its translational part is the weighted distance and its rotational part the weighted angle of the two; moving both poses changes nothing, and neither do the signs of the quaternions unless the rotational error is a half turn. The IMU rotation cost is zero exactly if the end rotation is the start turned by the measured rotation conjugated with the calibration, and the sine of half the angle otherwise. The IMU acceleration cost of a trajectory of constant acceleration is zero exactly if the measured velocity change is that of acceleration and gravity over half the time span. The penalties of the scan matchers are zero at their targets only.", "quantifier": "all poses, rotations, observations, weights, velocities, time spans and calibrations", "why_tests_cant": "The 3D constraint, rotation and acceleration costs have no unit tests; a wrong order of a quaternion product shows only as a worse map.", "anchors": ["cartographer/mapping/internal/optimization/cost_functions/cost_helpers_impl.h: ComputeUnscaledError, ScaleError", "cartographer/mapping/internal/optimization/cost_functions/spa_cost_function_3d.h", "cartographer/mapping/internal/optimization/cost_functions/rotation_cost_function_3d.h", "cartographer/mapping/internal/optimization/cost_functions/acceleration_cost_function_3d.h", "cartographer/mapping/internal/3d/scan_matching/rotation_delta_cost_functor_3d.h", "cartographer/common/math.h: QuaternionProduct"]}
{"id": "C67", "title": "Node poses are interpolated along the shortest arc and landmark costs are zero exactly at the observed landmark pose", "statement": "Over the reals, for unit rotations: SlerpQuaternions returns the unit quaternion that is the given fraction of the angle along the shorter arc, exactly the ends at 0 and 1; for nearly equal rotations it is linear and its squared norm is within 5e-6 of one (not a unit quaternion); it commutes with turning both ends on either side, the way back passes through the same rotations, and signs of the ends do not matter unless they are a half turn apart (where they do). InterpolateNodes3D is linear in the translation and independent of the frame; InterpolateNodes2D is InterpolateNodes3D of the embedded poses. Where the interpolated rotation is a unit quaternion, the landmark costs are zero exactly if the landmark pose is the interpolated pose composed with the observation, and independent of the frame; the 2D one is the 3D one of the embedded poses.", "quantifier": "all rotations, poses, observations, weights and interpolation parameters", "why_tests_cant": "Each landmark unit test evaluates one observation halfway between two nodes, all without rotations; interpolating between different rotations is not tested.", "anchors": ["cartographer/mapping/internal/optimization/cost_functions/cost_helpers_impl.h: SlerpQuaternions, InterpolateNodes3D, InterpolateNodes2D", "cartographer/mapping/internal/optimization/cost_functions/landmark_cost_function_3d.h", "cartographer/mapping/internal/optimization/cost_functions/landmark_cost_function_2d.h"]}
{"id": "C68", "title": "The interpolated grid of the 3D scan matcher is continuously differentiable, with the derivatives ceres computes, and stays between its voxels", "statement": "Over the reals: CenterOfLowerVoxel returns the centre of the voxel with the largest index whose centre is at most the coordinate; GetInterpolatedValue at the centre of a voxel is the value of the voxel; everywhere it is between the values of the eight voxels around; it is differentiable everywhere, also across voxel boundaries, with exactly the derivatives that Jet arithmetic yields, which are jointly (locally Lipschitz) continuous and vanish at the centres; its rate of change is bounded by the range of values over the resolution; between neighbouring centres it is strictly monotone along each axis. The occupied space cost has one residual per point between those of the most and least occupied voxels, and the Jacobians by the seven pose parameters that ceres computes from Jets are exactly its derivatives, as for the intensity cost; that one ignores points above the threshold, fails without intensities, and compares with averages of what was observed.", "quantifier": "all grids, resolutions, points, jets, poses, point clouds and intensities", "why_tests_cant": "The unit tests sample one grid with seven occupied voxels: the values at the grid points, and monotonicity between them along one axis; smoothness at the boundaries and the derivatives are not tested.", "anchors": ["cartographer/mapping/internal/3d/scan_matching/interpolated_grid.h", "cartographer/mapping/internal/3d/scan_matching/occupied_space_cost_function_3d.h: Evaluate", "cartographer/mapping/internal/3d/scan_matching/intensity_cost_function_3d.h: Evaluate", "cartographer/mapping/3d/hybrid_grid.h: GetCellIndex, GetCenterOfCell, IntensityHybridGrid"]}
{"id": "C69", "title": "The TSDF cost of the 2D scan matcher interpolates between known cells and weights every point relative to the mean weight", "statement": "Over the reals: ComputeInterpolationDataPoints finds the four cells whose centres surround the point. With all four known the cost is between theirs and at the centre of a cell it is the cell's; with one unknown it is the greatest cost. The weight is between the four weights, is the cell's at its centre and changes at most proportionally to the distance. Strictly between the centres the jets of cost and weight are their values and derivatives. TSDFMatchCostFunction2D returns false exactly when no point has weight; otherwise residual i times the sum of the weights is n s cost_i weight_i, so the residuals sum to n s times the weighted mean cost, are bounded by n s times the greatest cost, do not depend on a common factor of the weights, equal s cost_i for equal weights, and have the derivatives that ceres computes. False without the conditions: a known cell next to an unknown one does not have its own cost at its centre, and the residual jumps where a surrounding cell becomes unknown although the weight does not vanish there.", "quantifier": "all grids, resolutions, points, poses, point clouds, scaling factors and jets", "why_tests_cant": "The unit tests of the interpolation use one grid of a few cells; those of the cost check values and derivatives for clouds of a single point at a few poses next to one straight wall; several points with different weights and rotations are not covered.", "anchors": ["cartographer/mapping/internal/2d/scan_matching/interpolated_tsdf_2d.h", "cartographer/mapping/internal/2d/scan_matching/tsdf_match_cost_function_2d.cc: operator()", "cartographer/mapping/2d/map_limits.h: GetCellIndex, GetCellCenter, Contains"]}
{"id": "C70", "title": "The occupied space cost of the 2D scan matcher interpolates the padded grid with exact derivatives everywhere", "statement": "Over the reals, with the documented Catmull-Rom interpolation of ceres: GridArrayAdapter presents the grid continued without end by the greatest cost, rows being the y indices and columns the x indices; at the centre of a cell the residual is the scaled cost of that cell; elsewhere it leaves the range of the costs by at most 9/32 of that range; more than one and a half cells off the map it is the scaled greatest cost with a zero Jacobian; at every pose, also where it passes from cell to cell, it is differentiable with the Jacobian that ceres computes; no index overflows an int for maps of up to 2^30 cells a side and points within 10^9 cells. That the interpolated cost is at least the least cost is false: there is a grid with costs of 0.1 and 0.9 where it is -1/8.", "quantifier": "all grids, resolutions, poses, points and scaling factors", "why_tests_cant": "The smoke test evaluates one point of a grid without observations and ignores the Jacobian.", "anchors": ["cartographer/mapping/internal/2d/scan_matching/occupied_space_cost_function_2d.cc", "cartographer/mapping/2d/map_limits.h: GetCellCenter, Contains"]}
{"id": "C71", "title": "Histograms of directions between points of a cloud", "statement": "Over the reals: AddValueToHistogram adds a value to exactly the one bin that contains the line of the direction. ComputeHistogram is defined for every cloud and positive size; its bins are not negative and sum to at most the number of points. The slices are a partition of the cloud by height. SortSlice keeps the points that are not next to the centroid, in the order of their angle around it. Turning a sorted slice by full bins around the z axis turns what it adds to the histogram, provided that no difference of two points is exactly in the direction of the negative x axis before or after. Two stronger claims are false: the directions 0 and pi are the same line but have different bins, and the histogram of a turned cloud is not the turned histogram, since the order of the points starts at the negative x axis; for the corners of a square the score of the two is 0.", "quantifier": "all clouds, sizes, slices, angles and numbers of bins", "why_tests_cant": "ComputeHistogram has no unit test; the tests of the scan matcher use given histograms.", "anchors": ["cartographer/mapping/internal/3d/scan_matching/rotational_scan_matcher.cc: AddValueToHistogram, ComputeCentroid, AddPointCloudSliceToHistogram, SortSlice, ComputeHistogram"]}
{"id": "C72", "title": "Turning and comparing histograms", "statement": "Over the reals: RotateHistogram interpolates linearly between neighbouring bins around the circle; it keeps the size, the sum and the range of the bins, is the identity at 0, has the period pi, shifts by whole bins at multiples of pi / size, composes when one turn is by whole bins, and no bin changes faster than the difference of neighbours allows. The score of two histograms is symmetric, between -1 and 1, not negative for histograms that are not, the same when both are turned by whole bins, 1 when the product of the norms is below 1/1000, and otherwise 1 exactly for proportional histograms. Match scores every angle on its own, and the angle by which a scan was turned has the largest score. False: turns by parts of bins do not add up.", "quantifier": "all histograms, angles and lists of angles", "why_tests_cant": "The unit tests score one histogram of 7 bins at two angles and unit histograms of 10 bins.", "anchors": ["cartographer/mapping/internal/3d/scan_matching/rotational_scan_matcher.cc: MatchHistograms, RotateHistogram, Match"]}
{"id": "C73", "title": "The search window of the 2D correlative scan matchers", "statement": "Over the reals: for every cloud and positive resolution the window of SearchParameters exists; its step is positive, and the numbers of steps are the least ones that reach the given linear and angular bounds. Turning by at most a step moves every point of the cloud by less than a cell, so the cells of neighbouring rotations differ by at most one in each index; by half a step, by less than 0.51 cells; a step larger by 0.2 per cent moves the farthest point by a whole cell. Scan number i of GenerateRotatedScans and DiscretizeScans has the cells of the points under the initial pose turned by the orientation of candidates with that scan index. The cells of a candidate, shifted by its offsets, are the cells of the points under the pose that is returned for it, unless a point is exactly on the border of two cells (false there, refuted by example: GetCellIndex rounds away from zero). Every pose within the bounds is within half a cell per axis and half a step of a candidate, and its points within 1.01 cells per axis. MatchFullSubmap starts in the middle of the map, and its window has, up to half cells and half steps, every pose and heading under which some point falls into the map, as long as the range of the scan and half the size of the map are together at most a million cells.", "quantifier": "all clouds, resolutions, windows, map limits, initial poses and candidates", "why_tests_cant": "The unit tests construct one window with fixed steps and rotate and discretize a few points; coverage of the window is a statement about all poses.", "anchors": ["cartographer/mapping/internal/2d/scan_matching/correlative_scan_matcher_2d.cc: SearchParameters, GenerateRotatedScans, DiscretizeScans", "cartographer/mapping/internal/2d/scan_matching/correlative_scan_matcher_2d.h: Candidate2D", "cartographer/mapping/internal/2d/scan_matching/fast_correlative_scan_matcher_2d.cc: MatchFullSubmap, MatchWithSearchParameters"]}
{"id": "C74", "title": "The rotations tried by the fast 3D correlative scan matcher", "statement": "Over the reals: the angles of GenerateDiscreteScans are distinct whole multiples of a positive step, symmetric, with 0 among them, at most half a step outside the angular window, and every angle of the window is within half a step of one; with the window pi of MatchFullSubmap every heading is. The pose for an angle keeps the position of the node and turns it about the vertical axis of the global frame; for 0 it is the initial pose. Poses of angles at most a step apart, each 0 or above 1/10000, move points of the cloud by less than a cell, and so by at most one in each index; a step larger by 1.1 per cent moves the farthest point, when level with the node, by a cell. Kept are, in order, exactly the angles whose rotational score reaches the minimum; an angle by which the histogram of the scan becomes that of the submap is kept for every minimum up to 1. The linear window of MatchFullSubmap has every offset that puts some point into the grid.", "quantifier": "all clouds, resolutions, windows, poses, histograms, minima and grid widths", "why_tests_cant": "The unit tests match one cloud in grids made from it, for about twenty random poses.", "anchors": ["cartographer/mapping/internal/3d/scan_matching/fast_correlative_scan_matcher_3d.cc: Match, MatchFullSubmap, GenerateDiscreteScans"]}
{"id": "C75", "title": "The exhaustive real time scan matcher in 3D", "statement": "Over the reals: for windows that are not negative the transforms tried are (2l+1)^3 (2a+1)^3, the identity among them; offsets are whole cells within half a cell of the window, and every offset and rotation vector of the windows is within half a cell and half a step per component of one. Rotations about one axis at most a step apart (each 0 or above 1/10000) move every point by less than a cell, one 0.2 per cent larger than a step moves the farthest point by a cell if it is at a right angle to the axis. The score of a candidate is positive and at most the mean probability at the points, equal to it exactly when the weighted distance is 0, and decreases with that distance. The empty cloud stops the program. Otherwise Match returns the score and the pose of the first among the candidates of the largest score; the score is at least the mean probability under the initial pose, and the mean probability under the returned pose is at least the score.", "quantifier": "all clouds, grids with positive probabilities, windows, weights, resolutions and initial poses", "why_tests_cant": "The unit tests search one small cloud with windows of at most a few cells.", "anchors": ["cartographer/mapping/internal/3d/scan_matching/real_time_correlative_scan_matcher_3d.cc: Match, GenerateExhaustiveSearchTransforms, ScoreCandidate"]}
{"id": "C76", "title": "The texels of submap textures", "statement": "Over the reals: for every probability from kMinProbability to kMaxProbability the CHECKs of ProbabilityToLogOddsInteger hold and its value, 1 to 255, gives the log odds to half a step of ln 9 / 127; it does not decrease with the probability, and 1/10, 1/2 and 9/10 become 1, 128 and 255. The values of p and 1 - p add up to 256 unless the log odds are halfway between two steps (false there, refuted by example). The texel of such a probability has value and alpha of at most 127, one of them 0, and is never (0, 0), so that a known cell is never drawn as unknown; value minus alpha gives the log odds to half a step, except for (0, 1), which the two values 128 and 129 share. Deltas within a byte are otherwise recovered from their texels. For a TSDF the texel of every distance and weight within their maxima fits the bytes (alpha at most 128), is never (0, 0), and gives the weighted root distance to 1/2.", "quantifier": "all probabilities in the range of the grid, all distances and weights within their maxima", "why_tests_cant": "The unit tests convert a few probabilities; symmetry, monotonicity and the CHECKs concern all.", "anchors": ["cartographer/mapping/submaps.h: Logit, ProbabilityToLogOddsInteger", "cartographer/mapping/2d/probability_grid.cc: DrawToSubmapTexture", "cartographer/mapping/internal/2d/tsdf_2d.cc: DrawToSubmapTexture"]}
{"id": "C77", "title": "2D textures are painted cell by cell where the cells are", "statement": "For every well-formed 2D grid, with probabilities in range or distances and weights within their maxima, DrawToSubmapTexture gives 2 bytes for every cell of the cropped limits, UnpackTextureData's CHECK holds and DrawTexture gives one 32 bit pixel per cell: every known cell has a pixel, whose red and alpha channels are the texel of the cell and whose green channel is 255; the pixel of an unknown cell is 0. Over the reals: for poses without roll and pitch CairoPaintSubmapSlices paints the centre of the pixel of a cell at the place of the centre of the cell in the global frame, x to the right and y up, in units of the resolution from the origin PaintSubmapSlices returns (false for tilted poses, refuted by example). Every pixel painted is inside the image, at least 5 pixels from its border. When all slices have surfaces all are painted, in order; in general only those before the first one without a surface (that all with a surface are painted is refuted by example); with none to paint the size of the image is undefined.", "quantifier": "all well-formed grids, probabilities, poses, lists of slices and resolutions", "why_tests_cant": "The painter has no unit test; positions, bounds of the image and all cells are statements about all grids and poses.", "anchors": ["cartographer/mapping/2d/probability_grid.cc: DrawToSubmapTexture", "cartographer/mapping/internal/2d/tsdf_2d.cc: DrawToSubmapTexture", "cartographer/io/submap_painter.cc: CairoPaintSubmapSlices, PaintSubmapSlices, FillSubmapSlice, UnpackTextureData, DrawTexture"]}
{"id": "C78", "title": "The X-ray textures of 3D submaps", "statement": "Over the reals, for every list of voxels with probabilities in range of which at least one is obstructed and whose indices do not overflow: exactly the voxels with probability 0.501 or more are kept, each moved to the nearest voxel of the global frame; the texture spans exactly their bounding box, each of them is in exactly one pixel, no access is out of bounds and no CHECK fails. A pixel is transparent when the voxels of its column are less than 3 apart in height; otherwise it is the texel of the mean of their probabilities and, with weight 0.15 per level without a voxel, one minus the greatest of them; this is the plain mean when there is no free level, never more than the mean, and never outside the range, so that it is never clamped. The green channel is 255 exactly for the pixels not 0. The centre of a pixel is painted half a voxel below the centre of its column in x and in y (that it is the centre is refuted by example). Without an obstructed voxel the size of the texture overflows int, which is undefined.", "quantifier": "all lists of voxels, probabilities in range, resolutions and poses", "why_tests_cant": "There is no unit test of the 3D textures.", "anchors": ["cartographer/mapping/3d/submap_3d.cc: ExtractVoxelData, AccumulatePixelData, ComputePixelValues, AddToTextureProto", "cartographer/io/submap_painter.cc: FillSubmapSlice"]}
{"id": "C79", "title": "The IMU tracker keeps gravity fixed, levels itself and leaves the heading alone", "statement": "Over the reals: whatever calls an ImuTracker gets, its orientation is a unit quaternion. Advance fails exactly for earlier times; it turns about the angular velocity by the elapsed time times its length, leaves gravity as seen in the world where it is (exactly when the turn is zero or above 1e-4 radians, to within 5e-9 of its length otherwise), and advancing in two such steps is advancing in one. After an acceleration the averaged gravity lies between the old one and the acceleration, with the weight exp(-dt / constant) (0 for the first), it points up in the world (exactly, or to within 4e-12 if it pointed straight down), and the correction has a horizontal axis, so that it does not turn the heading. Without rotation a constant acceleration is approached exponentially in time however often it is sampled. The CHECKs fail exactly if the average is the null vector (that every acceleration is accepted is refuted: a first acceleration of zero, or one that cancels the average, ends in a failed CHECK).", "quantifier": "all sequences of calls, accelerations, angular velocities, times and time constants", "why_tests_cant": "The unit tests rotate a few times and compare with a tolerance; invariance, independence of the sampling and the exact condition of the CHECKs concern all inputs.", "anchors": ["cartographer/mapping/imu_tracker.cc: Advance, AddImuLinearAccelerationObservation, AddImuAngularVelocityObservation", "cartographer/mapping/internal/eigen_quaterniond_from_two_vectors.cc: FromTwoVectors"]}
{"id": "C80", "title": "IMU data are integrated piece by piece, and the pieces compose", "statement": "Over the reals, for IMU data in strictly increasing order of time and any interval: the CHECKs of IntegrateImu fail exactly if the end is before the start or the iterator is not at the reading that holds at the start; the iterator is left at the reading that holds at the end, so that intervals can be chained (false with two readings of the same time, refuted by example). With turns of zero or more than 1e-4 radians per piece the result is the composition of the motions of the pieces, each reading holding until the next; cutting the interval at the time of a reading, the two motions compose to the whole; cutting it anywhere the rotations do (false for the translations, refuted by example). For readings that just balance gravity without rotation ExtrapolatePoseWithImu keeps rotation and velocity, and its translation is that of constant velocity plus g/2 times the sum of the squared lengths of the pieces, which is at most g/2 times the duration times the longest piece (that a robot at rest is extrapolated to where it is, is refuted by example). The overload with two poses uses their difference over the time between them, and divides by zero for equal times.", "quantifier": "all ordered IMU data, intervals, calibrations, poses and velocities", "why_tests_cant": "There are no unit tests of the integration; composition and the exact error hold for all data and all intervals.", "anchors": ["cartographer/mapping/internal/3d/imu_integration.h: IntegrateImu, ExtrapolatePoseWithImu"]}
{"id": "C81", "title": "The PLY and PCD files that are written can be read back", "statement": "For any sequence of batches: a reader of binary PLY files finds in the file of PlyWritingPointsProcessor exactly the points of all batches in order, bit for bit, with the colour and intensity columns of the first batch with points (columns that only later batches have are dropped), provided comments have no newline and there are fewer than 10^15 points; writing fails exactly if a later batch with points has not as many colours or intensities as points though the first has them, or if there are no points (that a file is written in every case is refuted: without points Flush reads the uninitialised has_intensities_). Likewise for PCD files, with rgb packed into 32 bits, if all batches with points have colours or none has (false otherwise, refuted by example: the test is per batch, the header is not); without points the PCD file is a readable empty one; colours fewer than points are read out of bounds.", "quantifier": "all sequences of batches, points, colours, intensities and comments", "why_tests_cant": "There are no unit tests of the two writers; the round trip over all batches, the placeholder of the header overwritten in place, and mixed batches are not tested.", "anchors": ["cartographer/io/file_writer.cc: Write, WriteHeader", "cartographer/io/ply_writing_points_processor.cc: Process, Flush, WriteBinaryPlyHeader", "cartographer/io/pcd_writing_points_processor.cc: Process, Flush, WriteBinaryPcdHeader"]}
{"id": "C82", "title": "Detected floors are the levels of the long spans", "statement": "For any trajectory of at least two nodes whose second is not already more than 2.5 m above or below the first: the spans cut it up into consecutive parts at exactly the nodes that are apart from the median of their span so far; no CHECK fails; two spans get the same level exactly if a chain of spans of similar median connects them; DetectFloors returns floors in order of height, each with a long span and the median z of its long spans; every span on the level of a long one is on exactly one floor, once, and two such are on the same floor exactly if they are on the same level; any other span is only on floors of a neighbour, and on those of both neighbours if no such span is next to one of its level. DetectFloors fails exactly if there are no nodes or if the second is apart from the first (it then reads node(-1); that it works for every trajectory is refuted). That every span is on some floor and that no time span is listed twice on a floor is refuted by examples.", "quantifier": "all trajectories; the arithmetic of heights and lengths is arbitrary, only that < is asymmetric is used", "why_tests_cant": "There is no unit test of this file; termination and correctness of the union-find, the partition into floors and the order-dependent treatment of short spans concern all trajectories.", "anchors": ["cartographer/mapping/detect_floors.cc: SliceByAltitudeChange, LevelFind, LevelUnion, GroupSegmentsByAltitude, FindFloors, DetectFloors"]}
{"id": "C83", "title": "Generated ground truth consists of the loop closures that agree with the solution", "statement": "The covered distances of ComputeCoveredDistance differ by the lengths of the paths driven between two nodes, whatever the orientations, and are never shorter than the straight line; submap s is represented by the node of the first INTRA constraint of submap s + 1, and the CHECKs hold exactly if all INTRA constraints are of trajectory 0 and their submaps appear one by one; GenerateGroundTruth returns exactly the relations of the INTER constraints that have a represented submap, cover at least the minimum distance and whose discrepancy from the solution moves the representative node by at most the one threshold and turns by at most the other, in order, and counts the others of these as outliers; it aborts exactly if one of the indices does not exist. A loop closure that agrees with the solution is never an outlier, and for zero thresholds no other is accepted. That relations name the nodes of their constraints is false once nodes have been trimmed, as nodes are looked up by position.", "quantifier": "all pose graphs with unit quaternions (reals), all thresholds", "why_tests_cant": "There is no unit test of this file; the claims are about all graphs, including those with missing nodes.", "anchors": ["cartographer/ground_truth/autogenerate_ground_truth.cc: ComputeCoveredDistance, ComputeSubmapRepresentativeNode, GenerateGroundTruth", "cartographer/mapping/pose_graph.cc: ToProto"]}
{"id": "C84", "title": "The errors of relations do not depend on the map frame, and a map satisfies the ground truth generated from it", "statement": "ComputeError does not depend on the frame of the poses and is zero exactly if the second pose is where the relation puts it; the rotational error is the same for the inverse relation (the translational one is not, as the comment says); poses are looked up between the nodes, and before the first and after the last one these are taken; one error is computed per relation, the printed numbers are mean and sample standard deviation of the four lists, and StatisticsString aborts exactly for less than two relations; if the times of the nodes increase, relations generated from a map have errors within the thresholds in this map (false if two nodes have the same time).", "quantifier": "all pose graphs with unit quaternions (reals), all lists of relations", "why_tests_cant": "There is no unit test of these functions; the closed loop of generation and evaluation concerns all maps.", "anchors": ["cartographer/ground_truth/compute_relations_metrics_main.cc: ComputeError, MeanAndStdDevString, StatisticsString, LookupTransform, Run"]}
{"id": "C85", "title": "The IMU terms of the 3D optimization problem are the integrated readings between consecutive nodes", "statement": "For a trajectory that is not frozen, with node times that do not run back and readings in increasing order of time, OptimizationProblem3D::Solve adds for every two consecutively numbered neighbouring nodes one rotation term with the rotation integrated from the one to the other and weight rotation_weight over the seconds between, and for every three consecutively numbered ones one acceleration term with the change of velocity from the middle of the first two to the middle of the last two, expressed in the IMU frame at the second node, in this order and nothing else, wherever the readings lie and whatever numbers are missing; the calibration is held constant exactly if online extrinsics are off. It succeeds exactly if the trajectory is known, the readings start no later than the first node of every such pair, and three consecutively numbered nodes exist: with fewer, ceres aborts in SetParameterLowerBound, as the block of the gravity constant was never added, so that every trajectory with nodes and readings can be handled is false. A robot that does not turn and moves with constant acceleration, with readings of that, has zero residuals. In general a rotation term vanishes exactly if the orientations of its nodes differ by the turn of the IMU, and an acceleration term compares the change of velocity in the world frame with that of the positions.", "quantifier": "all lists of trajectories, nodes and readings (reals)", "why_tests_cant": "The unit test optimizes one simulated trajectory with one constant reading per node and checks that the errors shrink; gaps in the numbering, short trajectories and the exact intervals of integration are not covered.", "anchors": ["cartographer/mapping/internal/optimization/optimization_problem_3d.cc: OptimizationProblem3D::Solve"]}
{"id": "C86", "title": "Inserting range data into a TSDF updates each cell once, by the first ray that crosses it, and stays inside the grid", "statement": "TSDFRangeDataInserter2D::Insert grows the grid, always in finitely many rounds and keeping the map in place, until the origin and the points behind the hits are inside. Each cell is then updated at most once: by the first return, in the order used, that is at least the truncation distance away, whose ray (from the origin or from the truncation distance before the hit, to the truncation distance behind it) crosses the cell, and whose weight is not zero; the new distance is the weighted mean of the old one and the clamped signed distance of the cell center, and the weight the sum, capped; all other cells are unchanged. A ray crosses the cells that contain a point of it, up to half a thousandth of a cell. Distances stay within the truncation distance and weights between zero and the maximum; as long as it is not exceeded the distance is the weighted mean of all updates. On the ray, with a normal towards the origin, projected and plain distances agree. Returns are sorted by direction from minus pi to pi. If all returns have the height of the origin (and the superscaled grid fits into int), nothing aborts; in general that is false: the grid is grown along the three-dimensional direction but the ray is cast in the plane, so that it can leave the grid.", "quantifier": "all grids, options, range data, and any sorting and normals (reals)", "why_tests_cant": "The unit tests insert one to three returns, all at height zero, and compare some of the cells to a tolerance.", "anchors": ["cartographer/mapping/internal/2d/tsdf_range_data_inserter_2d.cc: GrowAsNeeded, SuperscaleRay, RangeDataSorter, TSDFRangeDataInserter2D::Insert, InsertHit, UpdateCell", "cartographer/mapping/2d/grid_2d.cc: Grid2D::GrowLimits"]}
{"id": "C87", "title": "Estimated normals of range data are the mean normal of the lines to neighbouring returns, and face the origin", "statement": "EstimateNormals returns one normal for each return. The samples of a return are the at most num_normal_samples/2 (rounded down) returns before it and (rounded up) after it that are, without interruption, within the sample radius. Without samples the normal is the direction to the origin; otherwise it is the direction of the sum of the unit normals, turned to the side of the origin, of the lines to the samples. If there are no samples, or some sample is at least 10^-6 away in the plane and not on the line of sight, the normal faces the origin; on a straight wall it is exactly the normal of the wall. Turning origin and returns about the vertical axis turns the normals. Otherwise it is false that normals are sensible: two returns at the same place, or samples only before and behind a return on its line of sight, give the normal 0 whatever the direction of the origin.", "quantifier": "all range data and options (reals)", "why_tests_cant": "The unit tests use a single return, a circle and a few straight walls and compare to a tolerance.", "anchors": ["cartographer/mapping/internal/2d/normal_estimation_2d.cc: EstimateNormal, EstimateNormals"]}
{"id": "C88", "title": "The rotation steps of the 3D optimization turn about the vertical axis only, or tilt about a horizontal axis only", "statement": "YawOnlyQuaternionPlus turns a rotation about the vertical axis of the world by twice the arc sine of the step limited to 1/2, so by at most a sixth of a circle, and every such turn is made by some step. ConstantYawQuaternionPlus with a step of length n of at least 10^-6 composes with a turn by 2n about the horizontal axis of the submap given by the step, which stays in place; the result is a unit quaternion, and a step of length at most pi/2 takes the vertical axis of the submap to any direction that is not within 2*10^-6 of where it is. Shorter steps give quaternions whose squared norm is between 1 and 1+10^-12, but it is false that they are always units; and it is false that the yaw, as GetYaw computes it, is constant under ConstantYawQuaternionPlus.", "quantifier": "all unit quaternions and steps (reals)", "why_tests_cant": "There are no unit tests of the parameterizations, only of optimizations that use them.", "anchors": ["cartographer/mapping/internal/3d/rotation_parameterization.h: YawOnlyQuaternionPlus, ConstantYawQuaternionPlus"]}
{"id": "C89", "title": "Migrating submaps recovers the histograms that inserting the nodes had computed", "statement": "MigrateSubmapFormatVersion1ToVersion2, given 3D submaps without histograms, nodes with histograms of one size, and constraints between existing submaps and nodes, gives each submap that has intra-submap constraints the sum of the histograms of their nodes, turned by the yaw from the gravity aligned frame of the node to the submap: exactly what Submap3D::InsertData computes when these nodes are inserted. Its mass is the mass of the histograms of the nodes, submaps without such constraints stay empty, ids and poses are kept, and the order of the constraints does not matter. 2D maps, maps without submaps, and inter-submap constraints are left alone. It is false that nodes with histograms of different sizes are handled: depending on the order of the constraints bins are written outside the histogram of the submap.", "quantifier": "all submaps, nodes and constraints (reals)", "why_tests_cant": "The unit test migrates one submap with one node at the identity pose, and compares the histograms, all of whose values are one.", "anchors": ["cartographer/io/serialization_format_migration.cc: MigrateSubmapFormatVersion1ToVersion2", "cartographer/mapping/3d/submap_3d.cc: Submap3D::InsertData"]}
{"id": "C90", "title": "Image stores colors per pixel, and four quarter turns are the identity", "statement": "In an image whose vector of pixels has width times height elements, SetPixel followed by GetPixel at coordinates inside gives the color back and changes no other pixel. Rotate90DegreesClockwise swaps width and height and puts at (x, y) the pixel that was at (y, height-1-x), never reads outside the vector, and four times is the identity.", "quantifier": "all images and coordinates", "why_tests_cant": "There are no unit tests of Image.", "anchors": ["cartographer/io/image.cc: Image::GetPixel, SetPixel, Rotate90DegreesClockwise, Uint8ColorToCairo, CairoToUint8Color"]}
{"id": "C91", "title": "X-ray pictures show the mean color of each column, faded by the number of its voxels", "statement": "After any batches, with or without floors, XRayPointsProcessor writes one picture per floor (one if there are none), each of the size of the smallest box around all points shown in any picture, and nothing if there are no points. The pixel of a column is white if the floor has no points there, and else the mean color of its points faded to white by the minimum of 1 and the logarithm of the number of different voxels in the column divided by the largest such logarithm, times the saturation factor; no access outside the matrix, the map of columns or the image occurs. With the factor 1 the thickest columns, of at least two voxels, have exactly their mean color. It is false that columns with points are visible: a column with a single voxel is white whatever its color.", "quantifier": "all batches, floors and saturation factors (reals)", "why_tests_cant": "There are no unit tests of the processor; its pictures are looked at.", "anchors": ["cartographer/io/xray_points_processor.cc: XRayPointsProcessor::Insert, Process, WriteVoxels, IntoImage, ContainedIn"]}
{"id": "C92", "title": "RateTimer keeps the pulses of the last window and computes their rate", "statement": "If the wall clock does not go back, the events RateTimer keeps after any pulses are the last ones: at least two if there were two pulses, spanning at most the window if there are more than two, and any further pulse would make them span more than the window. For at least two events with times that differ, ComputeRate times the time between the first and last event is the number of events less one, it is the inverse of the mean reported by DebugString, and ComputeWallTimeRateRatio is the time by the wall time. Pulses at equal distances d have the rate 1/d and, from three events on, the deviation 0; and a deviation of 0 means equal distances. It is false that the reported values are always numbers: with one event the rate, and with two events the deviation, is 0/0.", "quantifier": "all windows and sequences of pulses (reals)", "why_tests_cant": "The unit test checks one rate and one ratio, with pulses at equal distances.", "anchors": ["cartographer/common/internal/rate_timer.h: RateTimer::Pulse, ComputeRate, ComputeWallTimeRateRatio, ComputeDeltasInSeconds, DeltasDebugString"]}
{"id": "C93", "title": "Histogram cuts the range of its values into equal buckets and counts each value once", "statement": "For any values and at least one bucket, ToString with real numbers reports the smallest and the largest value; if they differ it writes as many rows as buckets, with bounds that cut the range into equal parts, each row with the number of values from its lower bound to below its upper bound (the last row including it), the number of values up to there, and a bar of at most 20 characters that is 20 times the share of the row, rounded with an error of at most 1/2 + 1/(2n) for n values. The total of the last row is the number of values. It is false with floats: the bounds are rounded one by one and need not increase, and then a value can be counted in several rows and the total exceed the number of values.", "quantifier": "all values and numbers of buckets (reals); binary32 for the refutation", "why_tests_cant": "There are no unit tests of Histogram.", "anchors": ["cartographer/common/histogram.cc: Histogram::ToString"]}
{"id": "C94", "title": "Submaps sent to an uplink server arrive as the same submaps", "statement": "A server with an uplink sends for each node of a trajectory the active submaps with their indices, and their grids when they are finished. Whichever of the messages of one trajectory arrive, in their order, SubmapController and LocalSlamResult2D keep one object per submap whose first message arrived, with the pose of that submap, and with its grid and finished if its last message arrived, else unfinished without a grid; and each node is added with exactly the objects of its active submaps that exist, or left out if there are none. If all messages arrive, all nodes are added with their active submaps, in 2D and in 3D. If messages arrive from any one on without gaps, as after a recovery of the uploader, the 2D pose graph registers the submaps in order without a failed CHECK. It is false for trajectories that run at the same time, which share the index of the first submap, so that a submap can get the grid of another; in 3D whenever the first message that arrives is not the first of the trajectory, where a null pointer is used; and in 2D with gaps, where a CHECK fails; the uploader leaves such gaps if it cannot reconnect in time.", "quantifier": "all data, numbers of data per submap and selections of messages; contents of submaps arbitrary", "why_tests_cant": "The tests with an uplink run one trajectory in 2D; one restarts the uplink server and one starts it late, and they count the results that arrive but do not compare submaps. None has an uplink in 3D or two trajectories at the same time, and none interrupts the connection alone.", "anchors": ["cartographer/mapping/internal/submap_controller.h: SubmapController::UpdateSubmap", "cartographer/mapping/internal/submap_controller.cc: CreateSubmap", "cartographer/mapping/internal/2d/local_slam_result_2d.cc: LocalSlamResult2D::AddToPoseGraph", "cartographer/mapping/internal/3d/local_slam_result_3d.cc: LocalSlamResult3D::AddToPoseGraph", "cartographer/cloud/internal/map_builder_server.cc: MapBuilderServer::OnLocalSlamResult", "cartographer/cloud/internal/sensor/serialization.cc: CreateSensorDataForLocalSlamResult", "cartographer/mapping/internal/2d/pose_graph_2d.cc: AppendNode, InitializeGlobalSubmapPoses"]}
{"id": "C95", "title": "Bucket boundaries of metrics are strictly increasing and follow their formula", "statement": "In binary64, Histogram::ScaledPowersOf fails a CHECK exactly if its base is not above 1 or its scale factor not above 0. For every base above 1, every normal scale factor and every maximum it ends and returns strictly increasing boundaries below the maximum, from the scale factor on, the k-th being the scale factor times the k-th power of the base up to k roundings; and it stops only where the next power reaches the maximum, up to its roundings. Without normal scale factors it is false that it ends: the least positive double with the least double above 1 as base loops for ever. Histogram::FixedWidth returns, for every positive width and int number of buckets that do not overflow, that many strictly increasing positive boundaries, the k-th being k times the width up to k roundings. That they are the rounded multiples is false: the tenth of FixedWidth(0.05, 20) is below 0.5 and the last above 1.", "quantifier": "all doubles with the stated conditions, all int numbers of buckets", "why_tests_cant": "The only test that uses boundaries, metrics_test.cc of the Prometheus metrics, calls FixedWidth(0.05, 20) once; ScaledPowersOf is not called by a test of its own. No test can try all bases, scale factors and maxima, or observe that a loop never ends.", "anchors": ["cartographer/metrics/histogram.cc: Histogram::FixedWidth, Histogram::ScaledPowersOf"]}
