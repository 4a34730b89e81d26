{"id": "C01", "title": "Nanosecond conversion is lossless in range and wraps exactly at 2^32 seconds", "statement": "SimpleTime::FromNanoSec(n).ToNanoSec() equals n for every n below 2^32 seconds, FromNanoSec(t.ToNanoSec()) equals t for every time whose nanosecond field is below 10^9, and beyond the range the result is exactly n reduced modulo 2^32 seconds (never any other value).", "quantifier": "all 64-bit nanosecond counts and all (secs,nsecs) pairs", "why_tests_cant": "2^64 inputs; the wrap boundary at 2^32 s and non-normalised nsecs fields are not reached by sampled tests", "anchors": ["common/simple_time.h: ToNanoSec", "common/simple_time.cc: FromNanoSec, SimpleTime(uint32_t,uint32_t)"]}
{"id": "C02", "title": "Time ordering is a total order, but == is a 1 ns tolerance and is not an equivalence", "statement": "The operators < <= > >= on SimpleTime are a total order that agrees with elapsed nanoseconds. operator== is exactly 'at most 1 ns apart': it is reflexive and symmetric, it is not transitive, and two times may satisfy both a < b and a == b.", "quantifier": "all pairs and triples of times", "why_tests_cant": "order laws are universally quantified statements over pairs/triples of 64-bit values", "anchors": ["common/simple_time.cc: operator==, operator!=, operator<, operator<=, operator>, operator>="]}
{"id": "C03", "title": "Addition and subtraction of times", "statement": "a + b never overflows the 64-bit intermediate and equals the sum modulo 2^32 seconds; a - b is the exact difference when a >= b and zero otherwise, so (a - b) + b is the later of a and b, and (a + b) - b is a whenever the sum is below 2^32 s.", "quantifier": "all pairs of times (including non-normalised nanosecond fields)", "why_tests_cant": "overflow and clamping depend on values near the limits of the representation; no finite test set covers them", "anchors": ["common/simple_time.cc: operator+, operator-, operator+="]}
{"id": "C04", "title": "Dividing a time by an integer", "statement": "t /= k leaves t unchanged for k = 0, otherwise yields floor(ToNanoSec(t)/|k|) nanoseconds in normalised form, for every int k except the most negative one, for which the negation is undefined behaviour.", "quantifier": "all times and all 32-bit divisors", "why_tests_cant": "single bad divisor out of 2^32; sign handling", "anchors": ["common/simple_time.cc: operator/="]}
{"id": "C05", "title": "PCL time stamps survive the round trip", "statement": "ToPclTime(ToLocalTime(us)) = us for every microsecond stamp below 2^32 seconds; ToLocalTime(ToPclTime(t)) is at most 999 ns earlier than t and never later; every stamp of 2^32 seconds or more is changed by the round trip.", "quantifier": "all 64-bit stamps", "why_tests_cant": "wrap-around of the u64 product is reachable only with extreme stamps", "anchors": ["common/simple_time.h: ToLocalTime, ToPclTime"]}
{"id": "C06", "title": "Time stamp binary search brackets the query", "statement": "For a time-sorted vector with at least two samples TimeStampBinarySearch terminates, never reads out of range and returns neighbouring positions (i, i+1) such that every sample at or after i+1 (except possibly the last one) is later than the query and every sample at or before i (except possibly the first) is not later than the query; hence when first <= t < last, data[i] <= t < data[i+1]. For vectors with fewer than two samples the process aborts.", "quantifier": "all sorted vectors of any length and all query times", "why_tests_cant": "the loop invariant has to hold for every length and every query position", "anchors": ["common/simple_time.h: TimeStampBinarySearch"]}
{"id": "C07", "title": "GPS admission keeps a strictly ordered track that begins at the first fixed solution", "statement": "Whatever sequence of GPS messages is inserted, either the process aborts because a stored message is not strictly later than its predecessor, or the stored track is exactly the subsequence starting at the first message with fixed status, is strictly increasing in time, and the coordinate reference is that first fixed message.", "quantifier": "all message sequences", "why_tests_cant": "universally quantified over message histories; ordering violations can occur at any position", "anchors": ["builder/data/data_collector.cc: AddSensorData(sensor_msgs::NavSatFix)"]}
{"id": "C08", "title": "Interpolated GPS stays between its two neighbours", "statement": "When InterpolateGps(t) returns a value for t inside the track, the value is the linear interpolation of two consecutive stored samples that bracket t, both of fixed quality and at most 0.2 s apart, so every coordinate lies between the neighbours' coordinates; outside the track, or on a gap or unfixed neighbour it returns nothing.", "quantifier": "all stored tracks and all query times", "why_tests_cant": "the bracketing and the bounds must hold for every track and query", "anchors": ["builder/data/data_collector.cc: InterpolateGps", "common/simple_time.h: TimeStampBinarySearch"]}
{"id": "C09", "title": "Two GPS samples closer than a microsecond abort the interpolation", "statement": "InterpolateGps never aborts on a track whose consecutive samples are more than 1 microsecond apart (with a threshold of at most 0.5 s), and it does abort the process for some track that insertion accepts.", "quantifier": "all tracks/queries for the safety half; a witness for the abort", "why_tests_cant": "needs a track with a sub-microsecond gap that the admission check accepts", "anchors": ["builder/data/data_collector.cc: InterpolateGps"]}
{"id": "C10", "title": "Trimming sensor data never loses the newest samples, but can lose the bracketing one", "statement": "TrimSensorData(t) removes only a prefix of samples older than t and always leaves at least the last two samples, and keeps every sample not older than t; however after trimming at t a GPS interpolation at t that worked before may be refused, because the sample just before t is removed.", "quantifier": "all stored tracks and trim times; a witness for the refusal", "why_tests_cant": "interaction of two calls over all histories", "anchors": ["builder/data/data_collector.cc: TrimSensorData, TRIM_DATA, InterpolateGps"]}
{"id": "C11", "title": "Accumulating N clouds emits exactly one cloud per N inputs without losing points", "statement": "With accumulate_cloud_num = N, after inserting any sequence of clouds the number of emitted clouds is floor(k/N), emitted cloud j is the concatenation in order of inputs jN..jN+N-1 and carries the time stamp of the first one, and the remaining inputs are held back; no point is lost, duplicated or reordered.", "quantifier": "all N >= 1 and all input sequences", "why_tests_cant": "history property over any number of calls", "anchors": ["builder/data/data_collector.h: AddSensorData<PointT>"]}
{"id": "C12", "title": "The cloud pipeline is FIFO and lossless under every schedule", "statement": "For every interleaving of the inserting thread, the preprocessing thread and the consuming thread, the clouds handed out by GetNewCloud, followed by those still queued, in processing and waiting, are exactly the inserted clouds in insertion order, each passed once through the filter.", "quantifier": "all schedules of the three threads and all inputs", "why_tests_cant": "tests exercise a handful of schedules; the claim is about all of them", "anchors": ["builder/data/data_collector.cc: CloudPreProcessing, GetNewCloud", "builder/data/data_collector.h: AddSensorData<PointT>"]}
{"id": "C13", "title": "An empty point cloud kills the preprocessing thread", "statement": "If the inserted cloud has no points and its stamp is more than 1 ns after zero, the preprocessing thread aborts the process on the stamp check, and for non-empty clouds with any filter chain that contains no statistics-removal filter in first position the check never fails.", "quantifier": "all clouds and filter chains", "why_tests_cant": "needs the joint behaviour of the collector and of the whole filter chain for every configuration", "anchors": ["builder/data/data_collector.cc: CloudPreProcessing", "pre_processors/filter_factory.cc: Factory::Filter", "pre_processors/processor_interface.h: SetInputCloud", "pre_processors/filter_statistic_removal.cc: Filter"]}
{"id": "C14", "title": "Every accepted task runs exactly once and in FIFO order", "statement": "For every schedule of producers, workers and the destructor, tasks are started in the order they were accepted, no task is started twice, and when the destructor has returned every accepted task has finished.", "quantifier": "all schedules, any number of workers and producers", "why_tests_cant": "concurrency: exponentially many interleavings", "anchors": ["common/simple_thread_pool.h: ThreadPool, enqueue, ~ThreadPool"]}
{"id": "C15", "title": "The thread pool rejects work after shutdown and never deadlocks on shutdown", "statement": "After the stop flag is set every enqueue throws and no new task is accepted; and in every reachable state in which the destructor has been called and has not returned some thread can take a step, so that with at least one worker the shutdown completes under any schedule after finitely many steps once tasks terminate.", "quantifier": "all reachable states of all schedules", "why_tests_cant": "deadlock freedom is a property of the whole state space", "anchors": ["common/simple_thread_pool.h: ThreadPool, enqueue, ~ThreadPool"]}
{"id": "C16", "title": "The eight sub-boxes tile the cube", "statement": "For every cube and point, the index returned for a contained point is that of a sub-box containing the point, points outside get a negative index, the sub-boxes lie inside the cube and have half its size.", "quantifier": "all cubes and all points", "why_tests_cant": "boundary planes (points exactly on a face or through the centre) are measure zero for random tests", "anchors": ["common/bounding_box.cc: GenerateSubBoxes, GetSubBoxIndexForPoint, ContainsPoint"]}
{"id": "C17", "title": "The octree neither loses nor duplicates points", "statement": "For every point set inside the root cube the leaves' points form a permutation of the input, each point is inside its leaf's box, no leaf is deeper than the depth limit and a leaf holds more than the allowed number of points only at the depth limit.", "quantifier": "all point sets, point limits and depth limits", "why_tests_cant": "recursion over unbounded inputs", "anchors": ["common/octree.cc: BuildTree, InitWithPointCloud, RecursiveOutput"]}
{"id": "C18", "title": "Bresenham voxel casting is a gap-free line from start to end", "statement": "VoxelCastingBresenham returns exactly max(|dx|,|dy|,|dz|)+1 voxels, the first is the start, the last is the end, consecutive voxels are distinct and differ by at most one in every coordinate, and it never aborts.", "quantifier": "all integer start and end voxels", "why_tests_cant": "infinite input space, error-accumulator invariant", "anchors": ["common/math.cc: VoxelCastingBresenham"]}
{"id": "C19", "title": "Bresenham voxels stay within half a voxel of the ideal line", "statement": "The i-th voxel returned by VoxelCastingBresenham deviates from the real line point at parameter i/max by at most half a voxel in every coordinate.", "quantifier": "all integer start and end voxels and all positions along the line", "why_tests_cant": "accuracy over all slopes needs the closed form of the accumulator", "anchors": ["common/math.cc: VoxelCastingBresenham"]}
{"id": "C20", "title": "DDA voxel casting reaches the end voxel", "statement": "VoxelCastingDDA never aborts, returns a path from start to end whose consecutive voxels are 26-neighbours and whose length is max delta + 1.", "quantifier": "all integer start and end voxels", "why_tests_cant": "infinite input space, error-accumulator invariant", "anchors": ["common/math.cc: VoxelCastingDDA"]}
{"id": "C21", "title": "Saving and loading a cloud is lossless", "statement": "Deserialising the bytes produced by serialising any cloud returns the same stamp and the same points in the same order, and reports success.", "quantifier": "all clouds of any size with arbitrary 32-bit field patterns (including NaN payloads)", "why_tests_cant": "all byte patterns and sizes", "anchors": ["builder/data/cloud_types.cc: InnerCloudType::Serialize, InnerCloudType::Deserialize, InnerPointType::Serialize, InnerPointType::Deserialize"]}
{"id": "C22", "title": "A truncated cloud file is not always reported as an error", "statement": "A file cut inside its 20-byte header is reported as an error; a file cut anywhere later is reported as a success, with the right number of points, the points completely in the file intact and every point after the cut all zero. So truncation is not detected (witness).", "quantifier": "all clouds and all truncation points", "why_tests_cant": "crash points: every prefix of every file", "anchors": ["builder/data/cloud_types.cc: InnerPointType::Deserialize, InnerCloudType::Deserialize"]}
{"id": "C23", "title": "Evicting a saved cloud to disk and reading it back preserves the points", "statement": "After SaveToFile followed by Clear, any later read access returns the points that were saved; Clear without a preceding save makes the next read access abort, and modifications made after the save are lost by Clear followed by a read.", "quantifier": "all histories of save, clear, transform and read operations", "why_tests_cant": "history property over all call sequences", "anchors": ["builder/data/cloud_types.cc: SaveToFile, Clear, CloudInMemory, TransformCloud, GetInnerCloud"]}
{"id": "C24", "title": "Normals do not survive an eviction", "statement": "A cloud whose normals were computed has no normals after being saved, cleared and read back, so using it as ICP target aborts.", "quantifier": "all clouds", "why_tests_cant": "needs the composition of four components over all inputs", "anchors": ["builder/data/cloud_types.cc: CloudInMemory, Clear, CalculateNormals", "registrators/icp_fast.cc: SetInputTarget"]}
{"id": "C25", "title": "Normal estimation replaces groups of points by their means", "statement": "CalculateNormals on a freshly converted non-empty cloud always succeeds: it partitions the points into groups of at most seven (at least four when there are eight or more points), any two groups separated by an axis-parallel plane; every non-degenerate group gives exactly one output point, the mean of the group's original points, and one normal computed from the same points, ordered by the first index of the groups. The numbers of points and normals agree and are at most a quarter of the input for eight or more points.", "quantifier": "all clouds and every conforming behaviour of nth_element, every rank decision", "why_tests_cant": "recursion over unbounded inputs and an unspecified ordering from the library", "anchors": ["builder/data/cloud_types.cc: BuildNormals, CalculateNormals"]}
{"id": "C26", "title": "Applying a transform translates the normals", "statement": "EigenPointCloud::ApplyTransform maps points correctly by the rigid transform but also adds the translation to the normals, so normals stay unit vectors only if the translation is zero (or cancels by accident).", "quantifier": "all clouds and transforms", "why_tests_cant": "needs an argument over all transforms; unit tests use identity or points only", "anchors": ["builder/data/cloud_types.cc: EigenPointCloud::ApplyTransform"]}
{"id": "C27", "title": "Submap and frame identifiers are totally ordered and their names are unique", "statement": "operator< on SubmapId and FrameId is a strict total order consistent with operator==, and two ids have the same debug string only if they are equal, so with the default file prefix the names of the files of different frames and submaps never collide; with a configured prefix they can.", "quantifier": "all pairs and triples of ids", "why_tests_cant": "order and injectivity laws over 2^96 values", "anchors": ["builder/frame.cc: FrameId::operator==, operator<, DebugString", "builder/submap.cc: SubmapId::operator==, operator<, DebugString"]}
{"id": "C28", "title": "A submap holds exactly frame_count frames with consecutive ids", "statement": "For every sequence of insertions the k-th frame gets index k and the submap's ids, the submap becomes full exactly when frame_count frames have been inserted, and inserting into a full submap aborts; a non-positive frame_count never becomes full.", "quantifier": "all insertion histories and option values", "why_tests_cant": "history property", "anchors": ["builder/submap.cc: InsertFrame, Full"]}
{"id": "C29", "title": "Relative poses inside a submap are never disturbed", "statement": "For any sequence of frame insertions and submap pose updates, after UpdateInnerFramePose every frame's global pose equals submap pose composed with the local pose fixed at insertion; in particular, relative poses between frames of a submap never change.", "quantifier": "all histories of pose updates (poses form a group)", "why_tests_cant": "history property over arbitrary pose values", "anchors": ["builder/submap.cc: InsertFrame, UpdateInnerFramePose"]}
{"id": "C30", "title": "Frame lookup by id", "statement": "GetFrame(id) returns the frame with exactly that index when the id belongs to the submap and is in range, and null for every other id including negative indices.", "quantifier": "all submaps and ids", "why_tests_cant": "signed/unsigned conversions on all 2^32 indices", "anchors": ["builder/submap.cc: GetFrame"]}
{"id": "C31", "title": "Cloud eviction obeys the configured delay", "statement": "With disk saving off or before the submap is matched, its cloud is never evicted; otherwise it is evicted at the first tick for which the accumulated idle time since the last access exceeds disk_saving_delay, and each access restarts the idle time; the points returned by an access are the same as before.", "quantifier": "all histories of ticks and accesses", "why_tests_cant": "history property with arbitrary delays", "anchors": ["builder/submap.cc: UpdateInactiveTime, Cloud, SetMatchedTransformedToNext"]}
{"id": "C32", "title": "A submap can be marked as matched only once", "statement": "The second call of SetMatchedTransformedToNext on a submap aborts, and the first one never does for a full submap whose frame clouds were not cleared before.", "quantifier": "all histories", "why_tests_cant": "history property", "anchors": ["builder/submap.cc: SetMatchedTransformedToNext"]}
{"id": "C33", "title": "Voxel probabilities stay in range and never wrap around", "statement": "For any sequence of hits and misses an 8-bit voxel probability stays between 25 and 230 and no conversion overflows, whatever the float computation returns; if that computation is accurate to 1e-5, a hit never lowers it and a miss always lowers it until it is 25. Over the reals the log-odds formula is Bayes' rule.", "quantifier": "all update histories", "why_tests_cant": "history property; a single wrap would flip an occupied voxel to free", "anchors": ["builder/multi_resolution_voxel_map.cc: InsertPointCloud", "builder/multi_resolution_voxel_map.h: UpdateOdds, ProbabilityToOdd, OddToProbability"]}
{"id": "C34", "title": "Every stored voxel holds between one and max_point_num_in_cell points", "statement": "After any sequence of cloud insertions every voxel in the map contains at least one and at most max_point_num_in_cell points, namely the first ones that ended in it, so exporting never hits the empty-voxel abort, and a voxel exists exactly if some inserted point ended in it; exporting with a threshold of 231/256 or more yields nothing, with 1 or more it is undefined.", "quantifier": "all insertion sequences (sequential execution)", "why_tests_cant": "history invariant", "anchors": ["builder/multi_resolution_voxel_map.cc: Initialise, InsertPointCloud, OutputToPointCloud"]}
{"id": "C35", "title": "The per-scan hit protection depends on point order", "statement": "Inserting the same scan with its points in a different order can produce different voxel probabilities, because a ray that passes through a voxel before the first point that ends in it has been processed still lowers it, and later rays do not.", "quantifier": "existence witness over point orders", "why_tests_cant": "order dependence is invisible to tests that use one order", "anchors": ["builder/multi_resolution_voxel_map.cc: InsertPointCloud"]}
{"id": "C36", "title": "The pose history of the extrapolator is bounded and never empty", "statement": "After any sequence of AddPose calls with increasing times the queue is non-empty, its last entry is the last added pose, and when it has at least three entries its second entry is newer than (last time - duration), so the pose window spans at least the configured duration once that much history exists.", "quantifier": "all pose histories", "why_tests_cant": "history property", "anchors": ["builder/pose_extrapolator.cc: AddPose"]}
{"id": "C37", "title": "A cached extrapolation can be stale", "statement": "ExtrapolatePose(t) repeated for the same t returns the value computed at the first call, even when a newer pose has been added in between, so two extrapolators with the same pose history can answer differently.", "quantifier": "existence witness over call histories", "why_tests_cant": "requires a specific interleaving of calls", "anchors": ["builder/pose_extrapolator.cc: ExtrapolatePose, AddPose"]}
{"id": "C38", "title": "Submaps are consecutive disjoint groups of frames", "statement": "For every schedule of scan matching and submap generation, submap k contains exactly the frames k*n .. k*n+n-1 in order, where n is frame_count; an incomplete last group is never turned into a submap.", "quantifier": "all schedules and all numbers of frames", "why_tests_cant": "concurrency and history", "anchors": ["builder/map_builder.cc: SubmapProcessing, InsertFrameForSubmap"]}
{"id": "C39", "title": "Frames can be lost at shutdown by a race", "statement": "There is a schedule in which the submap thread terminates although the scan-match thread has produced enough frames for a further submap, because it reads the number of frames before it reads the running flag.", "quantifier": "existence witness over schedules; plus: when the flag is read first no frame group is lost", "why_tests_cant": "a two-read race that needs a precise interleaving", "anchors": ["builder/map_builder.cc: SubmapProcessing, ScanMatchProcessing"]}
{"id": "C40", "title": "Clouds still waiting for preprocessing are dropped on finish", "statement": "FinishAllComputations can complete while inserted clouds are still waiting for preprocessing, so not every inserted cloud reaches the map.", "quantifier": "existence witness over schedules", "why_tests_cant": "requires a precise interleaving", "anchors": ["builder/map_builder.cc: FinishAllComputations, ScanMatchProcessing", "builder/data/data_collector.cc: CloudPreProcessing"]}
{"id": "C41", "title": "Key frame selection", "statement": "The first matched cloud always becomes a key frame, and later a cloud becomes a key frame exactly when translation since the last key frame reaches translation_range or the accumulated rotation reaches a non-negligible angle_range; between two consecutive key frames the accumulated motion before the last cloud stays below both limits.", "quantifier": "all motion sequences and thresholds", "why_tests_cant": "history property", "anchors": ["builder/map_builder.cc: ScanMatchProcessing"]}
{"id": "C42", "title": "Splitting the map output into parts covers every submap once", "statement": "With separate_output each submap is written to exactly one part, parts contain consecutive submaps in order and no part is larger than separate_step; a separate_step of zero is a division by zero.", "quantifier": "all numbers of submaps and step sizes", "why_tests_cant": "off-by-one boundary over all sizes", "anchors": ["builder/map_builder.cc: SaveMaps"]}
{"id": "C43", "title": "A loop is only closed after consecutive detections", "statement": "For every history of per-frame detections the detector attempts to close a loop only if the current frame and the previous one detected a loop, and at least max(1, trying_detect_loop_count) + 1 frames with a detection have been seen since the last time no loop was being tracked.", "quantifier": "all detection histories and settings", "why_tests_cant": "state machine history property", "anchors": ["back_end/loop_detector.cc: AddFrame"]}
{"id": "C44", "title": "Loop candidates never contain the frame itself or duplicates", "statement": "Every candidate pair of AddFrame pairs the new frame with an older existing frame, candidates are pairwise distinct, there are at most nearest_history_pos_num+1 of them, and without a search window the partner is more than loop_ignore_threshold frames older; the reported edges are the candidates whose registration succeeded. AddFrame does not crash for nearest_history_pos_num >= 1; for 0 a detection divides by zero, below -1 it throws; a negative loop_ignore_threshold disables detection.", "quantifier": "all pose/score histories and settings", "why_tests_cant": "sub-sampling arithmetic over all sizes", "anchors": ["back_end/loop_detector.cc: AddFrame, SetSearchWindow"]}
{"id": "C45", "title": "Accepted loop closures agree with the first one only", "statement": "CheckResult reports success exactly if there are at least two edges and none differs from the first by more than 0.25 m or 0.02 rad. Accepted edges need not agree with each other, the verdict depends on the order in which the matching tasks finished, and edges whose difference is NaN are accepted.", "quantifier": "all edge sets; witnesses for the second sentence", "why_tests_cant": "universal over edge lists; order and NaN dependence", "anchors": ["back_end/loop_detector.cc: CheckResult"]}
{"id": "C46", "title": "View graph edges always connect existing vertices", "statement": "After any sequence of AddVertex and AddEdge every edge recorded in the graph connects two existing vertices, re-adding a vertex keeps its connections, and the text dump contains every edge once per recorded direction.", "quantifier": "all operation histories", "why_tests_cant": "history invariant", "anchors": ["back_end/view_graph.cc: AddVertex, AddEdge, SaveTextFile"]}
{"id": "C47", "title": "The view-graph bounding box contains all vertices, but is too large for all-negative coordinates", "statement": "The bounding box contains every vertex, but for trajectories with only negative x (or y) coordinates the upper bound is a tiny positive number rather than the largest coordinate.", "quantifier": "all vertex histories; witness for the second half", "why_tests_cant": "sign-dependent initial value", "anchors": ["back_end/view_graph.cc: AddVertex, SaveImage"]}
{"id": "C48", "title": "Predicate filters split the cloud into kept and removed points", "statement": "For the range, axis-range, bounding-box, random-sample filters every index of a non-empty input is in exactly one of Inliers() and Outliers(), both lists are strictly increasing, and the output cloud consists of the inlier points in input order with the input's stamp, for every float value including NaN and for every sequence of random numbers.", "quantifier": "all clouds, parameters and random sequences", "why_tests_cant": "NaN and infinity handling, arbitrary sizes", "anchors": ["pre_processors/filter_range.cc: Filter", "pre_processors/filter_axis_range.cc: Filter", "pre_processors/filter_bounding_box.cc: Filter", "pre_processors/filter_random_sample.cc: Filter", "pre_processors/filter_interface.cc: FilterPrepare"]}
{"id": "C49", "title": "NaN points pass the axis filter but not the range filter", "statement": "The axis-range filter keeps every point whose selected coordinate is NaN, while the range filter always removes points with a NaN coordinate; an inlier of the range filter always has a range within [min,max].", "quantifier": "all points and limits", "why_tests_cant": "NaN semantics for all bit patterns", "anchors": ["pre_processors/filter_range.cc: Filter", "pre_processors/filter_axis_range.cc: Filter"]}
{"id": "C50", "title": "Ground removal silently drops sparse voxels", "statement": "GroundRemoval reports every point of a sufficiently populated voxel as exactly one of inlier or outlier, but points in voxels with fewer than min_point_num_in_voxel points are in neither list and not in the output.", "quantifier": "all clouds and settings", "why_tests_cant": "universal statement plus a counterexample to the partition contract", "anchors": ["pre_processors/filter_ground_removal.cc: SetInputCloud, Filter"]}
{"id": "C51", "title": "Voxel grid filter yields one centroid per occupied voxel", "statement": "The number of output points equals the number of distinct voxel indices in the input, every output point is the average of all input points of its voxel, and every input point contributes to exactly one output point.", "quantifier": "all clouds and voxel sizes", "why_tests_cant": "all inputs, hash-map iteration order unspecified", "anchors": ["pre_processors/filter_voxel_grid.cc: Filter"]}
{"id": "C52", "title": "A filter chain is the composition of its filters", "statement": "Factory::Filter on a non-empty cloud returns the result of applying the configured filters in order; once a filter leaves no points the result is empty; with no filters it is the identity.", "quantifier": "all chains and clouds", "why_tests_cant": "induction over chains; the shared middle clouds could leak stale data", "anchors": ["pre_processors/filter_factory.cc: Filter", "pre_processors/processor_interface.h: SetInputCloud"]}
{"id": "C53", "title": "Range image keeps at most one point per pixel", "statement": "RangeImage keeps at most one point per pixel, the first that falls into it; all indices into the image are in range and every input point is in exactly one of Inliers() and Outliers(); no point is lost because of its horizontal direction, the columns wrap around.", "quantifier": "all clouds", "why_tests_cant": "array-bound safety for every float input", "anchors": ["pre_processors/filter_range_image.cc: Filter"]}
{"id": "C54", "title": "Depth clustering labels each pixel exactly once", "statement": "DepthCluster terminates, gives every occupied pixel exactly one label, gives two linked neighbouring pixels the same label, and every reported cluster has at least 20 points. Without an input it aborts.", "quantifier": "all range images", "why_tests_cant": "graph search over all images", "anchors": ["pre_processors/filter_range_image.cc: DepthCluster, LabelOneComponent"]}
{"id": "C55", "title": "ICP outlier rejection keeps the closest matches", "statement": "For every set of match distances with at least one finite value the rejection step keeps at least one match, keeps only finite distances, every kept distance is not larger than every rejected one, and at least the configured fraction is kept; so the internal consistency checks never abort.", "quantifier": "all distance lists and ratios", "why_tests_cant": "universal over data; the code itself has a comment that the check 'sometimes happens'", "anchors": ["registrators/icp_fast.cc: GetDistsQuantile, ErrorElements"]}
{"id": "C56", "title": "ICP terminates", "statement": "IcpFast::Align stops after at most max(1, max_iteration) iterations and its convergence test never reads outside its history.", "quantifier": "all inputs and iteration limits", "why_tests_cant": "termination for all inputs", "anchors": ["registrators/icp_fast.cc: Align, CheckConvergence"]}
{"id": "C57", "title": "Bag playback delivers a prefix and never the last second", "statement": "Playing a bag ends, and hands out bag messages in bag order without gaps or duplicates (a prefix of the bag); for a time-ordered bag exactly the messages earlier than (last time - buffer_delay) are delivered, the rest stays in the buffer. GetNextMessage without an available message aborts.", "quantifier": "all bags whose stamps are at least buffer_delay, all non-negative delays", "why_tests_cant": "history property for every bag", "anchors": ["ros_node/playable_bag.cc: IsMessageAvailable, GetNextMessage, AdvanceOneMessage, AdvanceUntilMessageAvailable", "ros_node/static_mapping_node.cpp: main"]}
{"id": "C58", "title": "Map pieces cover every map point near its submap", "statement": "Every point within border_offset of its submap's position (in x and y) is given, with that submap, to the voxel map of a piece whose area contains it; joining the pieces at their recorded centres restores the coordinates of exactly the points output inside the piece areas; a position at least half a piece width inside the package lies in four pieces; piece files have distinct names. Points further than border_offset from their submap can be missing although they lie inside the package.", "quantifier": "all submap layouts, piece widths > 0, border offsets >= 0; witness for the last sentence", "why_tests_cant": "tiling arithmetic over all sizes", "anchors": ["builder/map_package.cc: SaveTrajectoriesAsMapPackage", "tools/join_pieces.cc: main"]}
{"id": "C59", "title": "FilePath and CreateDir", "statement": "FilePath(f) is the prefix of f up to and including its last '/', or empty without one; CreateDir strips exactly the trailing slashes, after success the stripped path exists and nothing was removed, but it also succeeds when an ordinary file has that name.", "quantifier": "all strings and file systems", "why_tests_cant": "all strings", "anchors": ["common/file_utils.cc: FilePath, CreateDir"]}
{"id": "C60", "title": "Clamp and Power", "statement": "Clamp(v,lo,hi) is v limited to [lo,hi] for lo <= hi and returns NaN unchanged; Power(x,n) is the n-fold product for n >= 0 and never returns for negative n: it recurses more than 2^31 + n levels deep until the exponent overflows.", "quantifier": "all arguments", "why_tests_cant": "all integers", "anchors": ["common/math.h: Clamp, Power"]}
{"id": "C61", "title": "Trimming while interpolating never changes a later GPS answer", "statement": "InterpolateGps(t, thr, trim_data = true) removes only samples older than t, leaves at least two samples, and every later query at a time t' >= t gives exactly the answer (value, refusal or abort) it would have given without the trimming.", "quantifier": "all strictly increasing tracks and all pairs of query times t <= t'", "why_tests_cant": "interaction of two calls over all histories and times", "anchors": ["builder/data/data_collector.cc: InterpolateGps"]}
{"id": "C62", "title": "Odometry is stored relative to the first message", "statement": "After any non-empty sequence of odometry messages the stored pose of message i is inverse(first pose) * pose_i with its own time stamp; the first stored pose is the identity and relative motions between messages are unchanged.", "quantifier": "all message sequences, any pose group", "why_tests_cant": "history property; the offset must stay the first pose forever", "anchors": ["builder/data/data_collector.cc: AddSensorData(const OdomMsg&)"]}
{"id": "C63", "title": "Odometry interpolation", "statement": "On a strictly increasing odometry track InterpolateOdom(t) interpolates the two samples bracketing t with the factor (t - t_a)/(t_b - t_a) in [0,1], refuses gaps above one second and aborts on gaps of at most one microsecond; because insertion accepts any order of stamps, a query on an admitted track can abort the process.", "quantifier": "all tracks and query times; a witness for the abort", "why_tests_cant": "as for GPS; the failing histories are rare", "anchors": ["builder/data/data_collector.cc: InterpolateOdom, AddSensorData(const OdomMsg&)"]}
{"id": "C64", "title": "No wake-up is ever lost in the thread pool", "statement": "With at least one worker, whenever a task is queued some worker can take a step by itself: no schedule leaves an accepted task waiting while every worker sleeps without a pending notification.", "quantifier": "all schedules of callers, workers and the destructor, any number of workers >= 1", "why_tests_cant": "lost wake-ups appear only under rare schedules", "anchors": ["common/simple_thread_pool.h: ThreadPool"]}
{"id": "C65", "title": "Mutual exclusion in the cloud pipeline, and the unprotected emptiness test", "statement": "At most one thread at a time is inside a mutex-protected section of the cloud queues; nevertheless the preprocessing thread tests the input queue for emptiness outside any lock, so there is a schedule in which it reads the queue while the inserting thread is modifying it (a data race).", "quantifier": "all schedules; for every cloud a witness schedule", "why_tests_cant": "a race may never show in a test run", "anchors": ["builder/data/data_collector.cc: CloudPreProcessing", "builder/data/data_collector.h: AddSensorData<PointT>"]}
{"id": "C66", "title": "Octree points outside the root cube, and the reported depth", "statement": "If there are more points than one leaf may hold, exactly the points outside the root cube are dropped; with fewer points all of them are kept in the single root leaf. GetMaxDepth is the greatest leaf depth over the tree just built and everything reported before, so rebuilding the same object with fewer points keeps reporting the old depth.", "quantifier": "all configurations, point sets and previous states", "why_tests_cant": "needs every configuration and the interaction of two initialisations", "anchors": ["common/octree.cc: BuildTree, InitWithPointCloud", "common/octree.h: GetMaxDepth"]}
{"id": "C67", "title": "Negative octree limits", "statement": "With a negative depth limit the construction never terminates once more points than the leaf limit coincide inside the cube; a negative point limit is converted to a huge unsigned number and gives a single leaf with all points.", "quantifier": "all cubes, points and limits", "why_tests_cant": "non-termination cannot be observed by a test", "anchors": ["common/octree.cc: BuildTree"]}
{"id": "C68", "title": "Rounding can abort the octree construction", "statement": "In double arithmetic the equality check on the edge lengths of a sub-box (absolute tolerance 1e-15) can fail: with the default size 100 and the centre (1000.1, 0, 0) every cloud of five or more points aborts the process.", "quantifier": "a concrete configuration, all clouds", "why_tests_cant": "depends on the rounding of particular coordinates", "anchors": ["common/bounding_box.cc: CubeBoundingBox(min,max), GenerateSubBoxes"]}
{"id": "C69", "title": "Where the voxel-casting functions are undefined", "statement": "VoxelCastingBresenham is undefined exactly when a coordinate difference of the two voxels leaves the int range; VoxelCastingDDA left-shifts a negative accumulator already on short rays, which the C++14 standard the project selects leaves undefined (compilers that define it give the path of C20).", "quantifier": "all voxel pairs; a witness ray", "why_tests_cant": "undefined behaviour is not observable by testing with one compiler", "anchors": ["common/math.cc: VoxelCastingBresenham, VoxelCastingDDA"]}
{"id": "C70", "title": "Evicted clouds cannot be transformed, and damaged files are loaded silently", "statement": "TransformCloud on a cloud that was evicted aborts the process; reloading an evicted cloud aborts if its file was cut in the header, and silently succeeds with all-zero points in place of the missing ones if it was cut later.", "quantifier": "all clouds, transforms and cut positions", "why_tests_cant": "crash points and call orders", "anchors": ["builder/data/cloud_types.cc: TransformCloud, CloudInMemory, Clear"]}
{"id": "C71", "title": "Normal estimation leaves the cloud unfit for motion compensation and for a second estimation", "statement": "CalculateNormals shrinks points and normals but not the per-point factors, the index array or indices_to_keep: after it, ApplyMotionCompensation aborts for every cloud of two or more points, and a second CalculateNormals can read outside the point matrix (witness).", "quantifier": "all clouds of two or more points; a witness cloud for the second call", "why_tests_cant": "composition of calls over all inputs", "anchors": ["builder/data/cloud_types.cc: EigenPointCloud::CalculateNormals, ApplyMotionCompensation"]}
{"id": "C72", "title": "The cloud of a full submap is the union of its frames; with the inner MRVM it never completes", "statement": "Without inner MRVM and voxel filter the insertion that fills a submap leaves as its cloud the points of all frames in insertion order, each moved by the frame's local pose, with the stamp of the first frame. With enable_inner_mrvm no history of calls ever completes a submap: the filling insertion aborts.", "quantifier": "all frames, poses, histories", "why_tests_cant": "over all frame contents; option combination never exercised", "anchors": ["builder/submap.cc: InsertFrame"]}
{"id": "C73", "title": "With the smallest hit probability hits have no effect", "statement": "With a configured hit_prob of at most 0.501 the truncation to 8 bits swallows every hit: no number of hits ever raises a voxel, while every miss lowers it.", "quantifier": "all voxel histories, any number of hits, any accurate log/exp implementation", "why_tests_cant": "accumulated rounding over unbounded histories", "anchors": ["builder/multi_resolution_voxel_map.cc: Initialise, InsertPointCloud"]}
{"id": "C74", "title": "Parallel insertion can exceed the voxel's point limit", "statement": "With T OpenMP threads a voxel receives at most max_point_num_in_cell + T - 1 points under every interleaving; the limit itself can be exceeded, and two hits can count as one.", "quantifier": "all interleavings and numbers of threads; witness interleaving", "why_tests_cant": "needs a precise interleaving", "anchors": ["builder/multi_resolution_voxel_map.cc: InsertPointCloud"]}
{"id": "C75", "title": "Which extrapolation calls fail", "statement": "Without IMU no call of AddPose/AddImuData/ExtrapolatePose fails as long as no query is older than the last pose; an older query aborts the process and a query before the first pose is undefined. With IMU an IMU message older than the last pose aborts, after a query for t2 a query for an earlier t1 (more than 1 ns, not older than the last pose) aborts even if IMU data came in between, and any query between InitializeWithImu and the next pose dereferences a null pointer.", "quantifier": "all call histories and time stamps", "why_tests_cant": "crash conditions over all call orders", "anchors": ["builder/pose_extrapolator.cc: AddPose, AddImuData, ExtrapolatePose, InitializeWithImu", "builder/imu_tracker.cc: Advance"]}
{"id": "C76", "title": "Each IMU message is used exactly once, except the first", "statement": "With strictly increasing IMU stamps, after any history the orientation tracker has used exactly the messages older than the last pose, in order and each once, except that the first message is used twice; messages not yet used are never dropped and at most one used one is kept.", "quantifier": "all histories of poses, IMU messages and queries", "why_tests_cant": "history property linking the trimming with the tracker", "anchors": ["builder/pose_extrapolator.cc: AddPose, AddImuData, AdvanceImuTracker, TrimImuData, InitializeWithImu"]}
{"id": "C77", "title": "Failures of the builder threads", "statement": "With a frame_count of at least one the collector, scan-match, submap and connection threads together can fail in exactly one way: the submap thread reads a frame that the scan-match thread is still appending to the concurrent vector (undefined behaviour, and reachable). A frame_count of 0 aborts the process, a negative one never produces a submap.", "quantifier": "all schedules of the threads and all cloud sequences", "why_tests_cant": "size() of a concurrent vector counts elements still under construction; needs a precise interleaving", "anchors": ["builder/map_builder.cc: SubmapProcessing, InsertFrameForSubmap, SubmapPairMatch, ConnectAllSubmap", "builder/submap.cc: InsertFrame"]}
{"id": "C78", "title": "Submaps reach the optimizer in order, but the last ones can be missed", "statement": "For every schedule ConnectAllSubmap hands submaps to the optimizer in index order, each once and only finished ones; a map with a single submap is never handed over; there is a schedule in which submaps finished before the end are not handed over, because the number of submaps is read before the done flag.", "quantifier": "all schedules; witness schedule", "why_tests_cant": "two-read race", "anchors": ["builder/map_builder.cc: ConnectAllSubmap, SubmapProcessing"]}
{"id": "C79", "title": "Finishing completes and leaves every submap matched", "statement": "From every reachable state of the threads there is a continuation in which FinishAllComputations returns (no deadlock, no unavoidable crash), and whenever it has returned every submap has been marked as matched, each exactly once.", "quantifier": "all schedules and cloud sequences", "why_tests_cant": "liveness and history property over interleavings", "anchors": ["builder/map_builder.cc: FinishAllComputations, SubmapProcessing, SubmapPairMatch, ConnectAllSubmap"]}
{"id": "C80", "title": "A cloud that arrives late corrupts or aborts the front end", "statement": "A cloud stamped before the last pose replaces the matching target without becoming a key frame and without normals: with fast ICP the next in-order cloud aborts the process, with another matcher the next key frame is placed as if the late cloud had been at the last key frame's pose. InsertPointcloudMsg's check does not prevent it while earlier clouds are queued.", "quantifier": "all front-end states and clouds; witness event sequence through the queue", "why_tests_cant": "needs out-of-order stamps with a queue backlog", "anchors": ["builder/map_builder.cc: ScanMatchProcessing, InsertPointcloudMsg", "registrators/icp_fast.cc: SetInputTarget"]}
{"id": "C81", "title": "The returned loop status is the one before the call", "statement": "The status AddFrame returns for a frame is the status stored before that frame was processed, so callers learn about a closed or tracked loop one frame late.", "quantifier": "all detector states and frames", "why_tests_cant": "history property", "anchors": ["back_end/loop_detector.cc: AddFrame"]}
{"id": "C82", "title": "Angle normalisation", "statement": "In exact arithmetic NormalizeAngleDifference ends and returns a value in [-pi, pi] that differs from its argument by a multiple of 2 pi; on doubles it never ends for infinite arguments and for large finite ones such as 2^57.", "quantifier": "all arguments; witnesses on doubles", "why_tests_cant": "non-termination cannot be tested", "anchors": ["common/math.h: NormalizeAngleDifference"]}
{"id": "C83", "title": "Averaging transforms", "statement": "AverageTransforms aborts on an empty list and reproduces a transform averaged with copies of itself, but headings on the two sides of the backward direction average to the forward direction.", "quantifier": "all transforms and numbers of copies; all small deviations for the second half", "why_tests_cant": "wrap-around of Euler angles", "anchors": ["common/math.cc: AverageTransforms"]}
{"id": "C84", "title": "The graph image shows every edge and grows with every call", "statement": "SaveImage draws one line per edge, in order, blue exactly for edges to the next index, with all end points inside the image for resolutions up to 1 m; but it is not read-only: each call widens the stored bounding box by one metre on every side, so saving the same graph again gives a larger image.", "quantifier": "all operation histories and resolutions in (0,1]", "why_tests_cant": "history property", "anchors": ["back_end/view_graph.cc: SaveImage"]}
{"id": "C85", "title": "A bag starting near time zero cannot be played", "statement": "If the first message of a bag is stamped earlier than buffer_delay after time zero (simulation time), constructing the PlayableBag throws.", "quantifier": "all bags and delays", "why_tests_cant": "depends on the range check of ros::Time subtraction", "anchors": ["ros_node/playable_bag.cc: IsMessageAvailable"]}
{"id": "C86", "title": "Degenerate map packages are undefined behaviour", "statement": "With piece_width 0, or without any submap, SaveTrajectoriesAsMapPackage converts an out-of-range double to int before it tests for a bad bounding box.", "quantifier": "all border offsets and piece widths up to 1e40", "why_tests_cant": "undefined behaviour is not observable by tests", "anchors": ["builder/map_package.cc: SaveTrajectoriesAsMapPackage"]}
{"id": "C87", "title": "Filter calls that break the inlier and outlier lists", "statement": "Filtering a cloud in place (output pointer equal to the input pointer) with a range, axis, box or sampling filter that does not pass everything leaves an empty cloud and two empty lists; and calling Filter a second time on a filter that passes everything lists every index twice.", "quantifier": "all filters of these kinds, clouds and parameters; witness for the second half", "why_tests_cant": "needs the aliasing and call-history dimension", "anchors": ["pre_processors/filter_interface.cc: FilterPrepare", "pre_processors/filter_axis_range.cc: Filter", "pre_processors/filter_random_sample.cc: Filter"]}
{"id": "C88", "title": "Statistics removal in a filter chain", "statement": "A StatisticRemoval filter in first position makes every chain return an empty cloud with stamp zero; in any later position the chain behaves as if it were not there.", "quantifier": "all chains and clouds", "why_tests_cant": "all positions in all chains", "anchors": ["pre_processors/filter_statistic_removal.cc: Filter", "pre_processors/filter_factory.cc: Filter"]}
{"id": "C89", "title": "The range image keeps state from earlier clouds", "statement": "clusters_ is never cleared: if a new cloud of fewer than 20 points is set, filtered and clustered, DepthCluster reports the clusters of the earlier cloud, built from old indices and new points, and reads outside the new cloud when an old index is too large. Filter called twice without SetInputCloud drops every point.", "quantifier": "all clouds, configurations and earlier states", "why_tests_cant": "needs histories over several clouds", "anchors": ["pre_processors/filter_range_image.cc: SetInputCloud, Filter, DepthCluster"]}
{"id": "C90", "title": "The lowest row of the range image reaches one row too far down", "statement": "A point whose elevation is less than one row height below btm_angle is put into row 0 instead of being dropped, because the row index is truncated towards zero; the points in the image are therefore not all above the configured lowest angle.", "quantifier": "all points and configurations for the first half, witness for the second", "why_tests_cant": "boundary behaviour of the float to int conversion", "anchors": ["pre_processors/filter_range_image.cc: Filter"]}
{"id": "C91", "title": "ICP calls that cannot succeed", "statement": "IcpFast::Align has undefined behaviour for every non-empty source when inner compensation is enabled (ApplyMotionCompensation reads its own uninitialised variable) and when a cloud was never set; it aborts the process for an empty source cloud and when no source point has a match at finite distance.", "quantifier": "all clouds, guesses and options", "why_tests_cant": "undefined behaviour is not observable by tests", "anchors": ["registrators/icp_fast.cc: Align", "builder/data/cloud_types.cc: ApplyMotionCompensation, ApplyTransform"]}
{"id": "C92", "title": "The pose graph handed to GTSAM is always well formed", "statement": "For every sequence of submaps and every behaviour of the loop detector, AddFrame and RunFinalOptimazation finish without a GTSAM exception or a failed CHECK. Each variable is inserted exactly once: one pose per submap, the odometry calibration iff odometry is used, and the GPS frame and GPS calibration iff the GPS frame was initialised. Every factor only mentions variables that exist.", "quantifier": "all sequences of submaps with or without odometry and GPS, all options, all loop detections, all estimates returned by GTSAM", "why_tests_cant": "a missing or duplicate variable needs a particular order of loop closures and GPS events over a long run, and the failure is an exception deep inside GTSAM", "anchors": ["back_end/isam_optimizer.cc: AddFrame, AddVertex, AddLoopCloseEdge, SolveGpsCorrdAlone, IsamUpdate, RunFinalOptimazation"]}
{"id": "C93", "title": "The factors of the pose graph and the poses written back", "statement": "The first submap has the only pose prior; consecutive submaps are joined by exactly one factor carrying the transform from the last submap; the loop factors are exactly the accepted loop closures in order, each from an older to the new submap, and carry the matched transform; odometry factors are exactly the odometry readings if odometry is used. After each AddFrame and after the final optimization every submap holds the latest estimate. In ConnectAllSubmap each submap starts from the estimated pose of its predecessor times the matched transform.", "quantifier": "all sequences of submaps, all options, all loop detections, all estimates", "why_tests_cant": "the graph is internal to the optimizer; tests see only the optimised poses, to which a missing or doubled factor makes a small difference", "anchors": ["back_end/isam_optimizer.cc: AddFrame, AddVertex, AddLoopCloseEdge, UpdateAllPose", "builder/map_builder.cc: ConnectAllSubmap"]}
{"id": "C94", "title": "Which GPS readings constrain the pose graph", "statement": "Before the GPS frame is initialised no reading is used and the transform to the GPS frame is the identity. It is initialised at the first submap with a reading for which at least gps_factor_init_num earlier readings exist and the rotation test succeeds. From then on the factors are all readings before that one and those readings after it whose submap index is a multiple of the sample step. The reading that triggers the initialisation is lost, so not every reading is used even with step 1 (refuted with a witness). A negative gps_factor_init_num disables the GPS because the comparison is unsigned.", "quantifier": "all sequences of submaps, all options, all estimates, all outcomes of the rotation test", "why_tests_cant": "one reading out of hundreds is missing; no output shows it", "anchors": ["back_end/isam_optimizer.cc: AddFrame, SolveGpsCorrdAlone, GetGpsCoordTransform", "builder/map_builder.cc: CalculateCoordTransformToGps"]}
{"id": "C95", "title": "The view graph and the submap connections mirror the pose graph", "statement": "After each AddFrame the view graph has exactly one vertex per submap with its latest estimate, and its edges, like the connections recorded in the submaps, are in order exactly the transforms of the factors between poses. A trajectory that consists of one submap is never given to the optimizer: the graph stays empty and the GPS transform is the identity.", "quantifier": "all sequences of submaps, all loop detections, all estimates", "why_tests_cant": "the three structures are updated at different places; a divergence shows only in the saved graph", "anchors": ["back_end/isam_optimizer.cc: AddVertex, AddLoopCloseEdge, UpdateAllPose", "builder/map_builder.cc: ConnectAllSubmap"]}
{"id": "C96", "title": "A submap may be used by any number of threads", "statement": "Whatever calls any number of threads make on one submap: no two threads ever own one of its two mutexes in incompatible ways, there is no deadlock, every run ends with all calls returned and both mutexes free, and the only unprotected access to the cloud pointer or the frames is GetInnerCloud. No CHECK fails if SetMatchedTransformedToNext is called at most once; two concurrent calls of it may both succeed because its CHECK is outside the lock, two consecutive ones abort.", "quantifier": "all numbers of threads, all sequences of calls, all interleavings, all delays, disk saving on or off", "why_tests_cant": "interleavings of lock upgrades cannot be enumerated by tests", "anchors": ["builder/submap.cc: Cloud, UpdateInactiveTime, SetMatchedTransformedToNext, GetFrames, UpdateInnerFramePose", "builder/data/cloud_types.cc: InnerPointCloudData"]}
{"id": "C97", "title": "Eviction never loses the points of a submap", "statement": "The points of a submap are always in memory or in its file, and the cloud is dropped from memory only with disk saving on, after SetMatchedTransformedToNext has saved it. A caller of Cloud()->GetInnerCloud() gets all points or none, and all of them while disk saving is off or the submap is not matched. That it always gets the points is refuted: the cloud can be dropped between the two calls, and the pointer is then read and written without synchronisation.", "quantifier": "all numbers of threads, all sequences of calls, all interleavings", "why_tests_cant": "the window between Cloud() and GetInnerCloud() is a few instructions wide", "anchors": ["builder/submap.cc: Cloud, UpdateInactiveTime, SetMatchedTransformedToNext", "builder/data/cloud_types.cc: Clear, CloudInMemory, SaveToFile, GetInnerCloud"]}
{"id": "C98", "title": "A submap is evicted only after the configured delay", "statement": "Each decision to drop the cloud is taken when the time counted since the last access exceeds disk_saving_delay, and there is at most one drop per decision. Every cloud handed out is preceded by its own reset of the counter. That at each drop the delay has passed since the last access is refuted: an access between the decision and the drop does not prevent it.", "quantifier": "all numbers of threads, all sequences of calls, all interleavings, all delays", "why_tests_cant": "needs an access between the test and the lock upgrade of the memory manager", "anchors": ["builder/submap.cc: UpdateInactiveTime, Cloud", "builder/memory_manager.cc"]}
{"id": "C99", "title": "Filters are configured as the XML says", "statement": "Factory::InitFromXmlNode succeeds iff every param of every supported filter element names a parameter of this filter, has type 0 or 1, and, if read as a float for an int parameter, fits an int. The filters are then the supported elements in document order (others are skipped), and each parameter has the last value given for it, read according to the type attribute and converted to the parameter's own type, or its default. Otherwise the process aborts, or the conversion is undefined; nothing is thrown. InitFromXmlNode of one filter aborts on an element that is no filter, ignores an element for another filter and otherwise returns ConfigsValid.", "quantifier": "all XML trees, all results of the text conversions", "why_tests_cant": "the space of documents is unbounded; tests use the shipped configuration", "anchors": ["pre_processors/filter_factory.cc: InitFromXmlNode, RegisterSupportedFilters", "pre_processors/filter_interface.cc: InitFromXmlNode", "pre_processors/xml_interface.h: SetValue, INIT_FLOAT_PARAM, INIT_INT32_PARAM"]}
{"id": "C100", "title": "Invalid filter configurations are used", "statement": "That the configured chain only holds filters with a valid configuration is refuted: the factory ignores the result of InitFromXmlNode. An invalid BoundingBoxRemoval ends the process at the first non-empty cloud, AxisRange with an axis other than 0, 1, 2 removes nothing, RandomSampler with a rate above 1 keeps every point and with a negative rate or NaN none.", "quantifier": "witness for the refutation; all parameters and clouds for the consequences", "why_tests_cant": "a test of ConfigsValid passes; the missing use of its result shows only in production", "anchors": ["pre_processors/filter_factory.cc: InitFromXmlNode", "pre_processors/filter_bounding_box.cc", "pre_processors/filter_axis_range.cc", "pre_processors/filter_random_sample.cc"]}
{"id": "C101", "title": "Which matchers can be created", "statement": "CreateMatcher returns a matcher iff the type is one of the four implemented ones and every option given is registered by it; the options then have the last value given, read as the registered type, or the default. Types 2 and 4 and unknown options abort, any other number gives a null pointer. libpointmatcher ICP and NDT register no options, so any param for them aborts.", "quantifier": "all types, option elements and text conversions", "why_tests_cant": "tests create one or two matchers with valid options", "anchors": ["registrators/interface.cc: CreateMatcher, InitWithXml", "registrators/icp_fast.cc", "registrators/ndt.cc", "registrators/ndt_gicp.cc", "registrators/icp_pointmatcher.cc: constructors"]}
{"id": "C102", "title": "When the map builder can be initialised", "statement": "MapBuilder::Initialise succeeds iff the file has the element edward_liu/static_mapping and its settings satisfy an explicit list of conditions: usable paths, well formed filters and scan matcher, GPS or descriptor loop detection, at least one accumulated cloud and point per cell, hit probability above and miss probability below 0.5, and the IMU off or with a frequency above 1e-6. The builder then holds exactly the settings of the file or the defaults, with paths that end in a slash. That it falls back to a default configuration for a missing or malformed file is refuted: the default configuration always aborts, because the IMU is on with frequency 0. A null name and an empty path are undefined behaviour.", "quantifier": "all file systems, documents, names and text conversions", "why_tests_cant": "most combinations of missing settings are never tried", "anchors": ["builder/map_builder_options.cc: Initialise, ReadMatcherOptions, CheckOptions", "builder/map_builder.cc: InitialiseInside", "common/macro_defines.h: GET_SINGLE_OPTION", "common/file_utils.cc: CreateDir"]}
{"id": "C103", "title": "The voxel size of submaps is ignored", "statement": "InsertFrame of a submap that becomes full down-samples its cloud with a VoxelGrid filter of the default voxel size, whatever voxel size is configured: the XML text it builds names the filter RandomSampler, so the VoxelGrid ignores it. That the configured size is used is refuted.", "quantifier": "all voxel sizes, clouds, text conversions", "why_tests_cant": "the map looks plausible with either voxel size", "anchors": ["builder/submap.cc: InsertFrame", "pre_processors/filter_interface.cc: InitFromXmlText, InitFromXmlNode", "pre_processors/filter_voxel_grid.cc"]}
{"id": "C104", "title": "Maps are read back as written", "statement": "ConnectionsStrToIds reads back every list of submap ids that ToXmlNode writes. LoadTrajectoryFromFile of a file written by GenerateMapPackage gives the trajectories in the same order, with the index, pose, connections and file name of every submap, if the numbers survive as text and no tx or ty is -0; it aborts iff a file or the directory is missing. That the id of the trajectory survives is refuted: it becomes its position.", "quantifier": "all trajectories, poses, connections, file systems, number formats", "why_tests_cant": "round trips of arbitrary maps and connection lists cannot be enumerated", "anchors": ["builder/trajectory.cc: ToXmlNode", "builder/map_builder.cc: GenerateMapPackage", "builder/multi_trajectory/multi_trajectory_map_builder.cc: LoadTrajectoryFromFile, ConnectionsStrToIds, split"]}
{"id": "C105", "title": "What the map file does not keep or check", "statement": "The ENU offset of a trajectory is written but never read, so loading does not depend on it; that it is kept is refuted by two trajectories 1 m apart that are read at the same place. In a file that does have utm_x and utm_y, submaps are placed relative to the first trajectory. A token of a connection list is rejected iff a comma stands before its first bracket; tokens without a comma are accepted, \"[t]\" as (t, 0) and \"t\" as (t, t).", "quantifier": "all maps and offsets, all tokens", "why_tests_cant": "needs maps with different origins, and malformed files", "anchors": ["builder/trajectory.cc: ToXmlNode", "builder/multi_trajectory/multi_trajectory_map_builder.cc: LoadTrajectoryFromFile, ConnectionsStrToIds"]}
{"id": "C106", "title": "Which messages reach the data collector", "statement": "For every sequence of calls: a point cloud is taken iff the builder is initialised and not finished, has had an IMU message if it uses the IMU, and the cloud is not older than the latest pose; it is moved by the latest SetTrackingToLidar and appended, otherwise nothing changes. IMU messages are rotated by the latest SetTrackingToImu and appended iff the IMU is on and the builder is not finished; GPS messages are handed on iff GPS was enabled last; odometry never. Whenever a cloud is queued the extrapolator exists. That the caller's message stays unchanged is refuted: inserting it again moves it twice.", "quantifier": "all call sequences of any length, interleaved with the poses of the scan match thread; all transforms and messages", "why_tests_cant": "the order of calls is unbounded; tests use one order", "anchors": ["builder/map_builder.cc: InsertPointcloudMsg, InsertImuMsg, InsertOdomMsg, InsertGpsMsg, InitialiseInside, FinishAllComputations", "builder/pose_extrapolator.cc: GetLastPoseTime, InitializeWithImu, AddImuData"]}
{"id": "C107", "title": "Which calls of the map builder fail", "statement": "For every sequence of calls the exact failing calls are characterised. Undefined behaviour: clouds before Initialise, null messages that are used, clouds or IMU messages without the transform set, odometry before EnableUsingOdom, GPS before Initialise, Finish before Initialise, and Finish before EnableUsingOdom was ever called (it reads the uninitialised use_odom_). Abort: an IMU transform that is not upright, a first IMU message that is not level, an IMU message older than the latest pose, a GPS message that is not newer than the last, any odometry once enabled. Exception: only a second Finish. That late IMU messages are skipped like late clouds, and that odometry can be used, are refuted.", "quantifier": "all call sequences, all calls", "why_tests_cant": "misuse orders are not covered by tests; undefined behaviour may pass a test", "anchors": ["builder/map_builder.cc: InsertPointcloudMsg, InsertImuMsg, InsertOdomMsg, InsertGpsMsg, SetTrackingToImu, FinishAllComputations", "builder/data_collector.cc: AddSensorData", "builder/pose_extrapolator.cc: AddImuData"]}
{"id": "C108", "title": "The optimizer keeps the settings of Initialise", "statement": "After any sequence of calls the optimizer has the GPS, odometry and loop flags of the configuration file and the odometry and GPS transforms set before Initialise. That EnableUsingGps(false) and EnableUsingOdom(false) switch them off there is refuted for the order used by the node: they change only the copy of the options in the builder.", "quantifier": "all call sequences; witness for the refutation", "why_tests_cant": "the flags are internal and their use depends on data", "anchors": ["builder/map_builder.cc: InitialiseInside, EnableUsingOdom, EnableUsingGps", "ros_node/static_mapping_node.cpp: main"]}
{"id": "C109", "title": "Poses as translation and Euler angles", "statement": "EulerAnglesToRotationMatrix gives the rotation about x, then y, then z by the three angles. TransformToVector6 followed by Vector6ToTransform gives a pose back exactly if the horizontal part of its x axis is at least 1e-6 long, or zero; in between each entry changes by at most twice that length. That every pose survives is refuted. Angles in their ranges survive the other way round. The angles always lie in [-pi, pi], [-pi/2, pi/2], [-pi, pi].", "quantifier": "all rotations, translations and angles (real numbers)", "why_tests_cant": "the fallback near the vertical is reached by few poses; all rotations cannot be sampled", "anchors": ["common/math.h: RotationMatrixToEulerAngles, EulerAnglesToQuaternion, EulerAnglesToRotationMatrix, TransformToVector6, Vector6ToTransform"]}
{"id": "C110", "title": "NormalizeRotation", "statement": "NormalizeRotation returns a proper rotation for every 3x3 block, even a singular one, and keeps the translation; it leaves rigid transforms unchanged and is idempotent. In all four branches the quaternion of a rotation matrix is a unit quaternion of that rotation.", "quantifier": "all real matrices", "why_tests_cant": "the branches for half turns and degenerate blocks are rarely reached", "anchors": ["common/math.h: NormalizeRotation", "Eigen: Quaternion from Matrix3"]}
{"id": "C111", "title": "Interpolated poses and motion compensation", "statement": "InterpolateTransform aborts iff the factor is outside [0, 1]; 0 gives the first pose, 1 the second, two equal poses give that pose; the translation is linear; if the poses are not almost equally oriented the result is rigid and its angles to the two poses are factor and 1 - factor times the angle between them; in any case its rotation block is within 2^-52 of a rotation. MotionCompensation aborts iff some factor is outside [0, 1], keeps number, order, intensity and factor of the points and moves each point by the interpolated motion: not at all for factor 0, fully for factor 1.", "quantifier": "all rigid poses, factors and clouds of any length (real numbers)", "why_tests_cant": "angles and factors form a continuum; the branches of slerp near 0 and 180 degrees are rarely hit", "anchors": ["common/math.h: InterpolateTransform", "builder/map_builder.cc: MotionCompensation", "Eigen: Quaternion::slerp"]}
{"id": "C112", "title": "The IMU tracker stays upright", "statement": "For every sequence of Advance, acceleration and angular velocity calls the orientation is a rotation that turns the gravity estimate upward: exactly if the estimate did not turn almost upside down at once, otherwise up to a cosine of 1 - 4e-12. Advance aborts iff time goes back, an acceleration is rejected iff the new estimate is exactly zero; the two checks on the result cannot fail otherwise. The first message of the pose extrapolator levels its acceleration without turning about the vertical.", "quantifier": "all call sequences, accelerations, rates, times and time constants (real numbers)", "why_tests_cant": "accumulated state over unbounded histories; the checks fire only in corner cases", "anchors": ["builder/imu_tracker.cc: ImuTracker, Advance, AddImuLinearAccelerationObservation, AddImuAngularVelocityObservation", "builder/pose_extrapolator.cc: InitializeWithImu", "Eigen: Quaternion::FromTwoVectors"]}
{"id": "C113", "title": "Steps of the IMU integration", "statement": "If the sensor turns about one of its axes, Advance turns the orientation about that axis by rate times time, so the steps in which time advances do not matter. For rates about several axes this is refuted: the rates times the time are used as Euler angles, and one step of one second differs from two of half a second.", "quantifier": "all orientations, rates and times; witness for the refutation", "why_tests_cant": "integration errors are taken for sensor noise", "anchors": ["builder/imu_tracker.cc: Advance", "common/math.h: EulerAnglesToQuaternion"]}
{"id": "C114", "title": "GroundRemoval2 divides every cloud", "statement": "SetInputCloud and Filter of GroundRemoval2 end for every cloud whose points have an angle and a distance that fit an int: no CHECK fails and no exception is thrown. Inliers and outliers divide the indices, both ascending, and the points written are the inliers. With zero threads all points are kept, with a negative number the program ends, and a NaN coordinate is undefined behaviour. The range test never excludes a point: that points nearer than r_min are kept is refuted.", "quantifier": "all clouds, parameters and arithmetics with the laws of an order and rings that do not decrease with the distance; binary32 with rounding is proved to be one for every r_min and positive ring width", "why_tests_cant": "termination of the loop that steps back and the CHECK on line ends depend on data; no test feeds NaN or the thread numbers", "anchors": ["pre_processors/filter_ground_removal2.cc: SetInputCloud, Filter, FitLines, ClusterGround, VerticalDistanceToSegment"]}
{"id": "C115", "title": "Which points GroundRemoval2 removes", "statement": "A point is removed iff no point of its cell up to it is lower by more than 0.5 and the line that decides about it is more than 0 and at most max_dist_to_line away. The deciding line is the last one of the own sector over the point or, without one, that of the first sector with a positive distance, the farthest sector tried first. That a flat floor at the expected height is removed and that the nearest sector decides are refuted.", "quantifier": "all clouds with heights that are numbers; witnesses for the refutations", "why_tests_cant": "a synthetic flat floor is the obvious test and is exactly the case that fails; the order of the sectors shows in few clouds", "anchors": ["pre_processors/filter_ground_removal2.cc: SetInputCloud 195-209, ClusterGround, VerticalDistanceToSegment"]}
{"id": "C116", "title": "The lines GroundRemoval2 finds", "statement": "Every line is fitted to the lowest points of at least three cells that follow each other, with all errors at most max_error and slope at most max_slope, and starts near the end of the line before (the first near start_ground_height). A line goes over a gap of long_line_threshold only after at least three cells, and from there on each point is at most max_long_line_height off the line fitted to the points before it. A floor without gaps whose lowest points always fit becomes one line over all its cells. If the first two cells with points of a sector are long_line_threshold apart, the sector has no line at all; that the floor behind such a gap is removed is refuted.", "quantifier": "all clouds with heights that are numbers; witness for the refutation", "why_tests_cant": "is_long_line is not reset when a line restarts, which shows only for clouds with a gap next to the sensor", "anchors": ["pre_processors/filter_ground_removal2.cc: FitLines 240-316, GetMaxError, LocalLineToLine"]}
{"id": "C117", "title": "A step of ICP solves the linear point to plane problem", "statement": "The equations that ComputePointToPlane builds have as solutions exactly the small motions (rotation vector and translation, scaled by the factor of the point with compensation) of least weighted sum of squared distances of the kept points from the planes of their matches. The matrix is symmetric and positive semidefinite; two solutions differ exactly by a motion that slides along all planes. The rigid motion made of a solution has these distances up to half of the squared angle times the distance of the point from the mean of the target. That a step never increases the sum is refuted (large angle, solution of least norm).", "quantifier": "all lists of matches with non-negative weights, all solutions, points and unit normals (real numbers)", "why_tests_cant": "an error in a sign or in a weight only slows convergence down in tests", "anchors": ["registrators/icp_fast.cc: CrossProduct, ComputePointToPlane"]}
{"id": "C118", "title": "What Align of ICP returns", "statement": "From a rigid guess Align returns a rigid motion, for every solver and matching. The loop works on both clouds with the mean of the target subtracted; the result places a point where the guess and the loop left it, and the target cloud is left as it was. If the guess puts all kept points on the planes of their matches, the guess is returned after any number of iterations. If the source is a translated target, correctly matched with planes that stop all motions, one step puts all points on their matches. The score is in (0, 1] and is 1 iff the kept points were at distance 0 before the last step; that it tells how well the result fits is refuted.", "quantifier": "all clouds, guesses, numbers of iterations, matchings and solvers (solvers that map 0 to 0 for the perfect guess)", "why_tests_cant": "the frames cancel for targets centred at the origin; the score is compared with thresholds only", "anchors": ["registrators/icp_fast.cc: Align, ComputePointToPlane"]}
{"id": "C119", "title": "The M2DP signature", "statement": "CalculateDescriptor gives every frame with points a descriptor computed from a 64 x 512 matrix. Each row counts every projected point within 100 m exactly once, by ring (radius growing with the square) and sector. Because the coordinates in the plane are taken without sign, sectors beyond a quarter turn are always empty, and a cloud and its point reflection have the same descriptor. The first axis of a view lies in its plane iff cos(theta)cos(phi) >= 0; that all views are orthogonal projections is refuted for all 16 views with theta = 3/4 pi. A reused object counts the points of all its clouds; too small a radius is undefined behaviour.", "quantifier": "all clouds, principal component projections, singular value decompositions and views (real numbers)", "why_tests_cant": "the descriptor is a black box of 576 floats for a test; lost signs only make it less selective", "anchors": ["descriptor/m2dp.cc: preProcess, singleViewProcess, setInputCloud", "builder/frame_base.cc: CalculateDescriptor"]}
{"id": "C120", "title": "The score of two descriptors", "statement": "matchTwoM2dpDescriptors returns -1 for descriptors of different or too small length and otherwise a number in [0, 1], the same for both orders and for a descriptor with the other sign. It is not a number iff one of the descriptors is constant, and it is 1 iff one is a rising or falling linear function of the other. In the loop detector equal descriptors are alike for every limit below 1, none are for a limit of 1 or more, and a submap without descriptor is like no other.", "quantifier": "all descriptors and limits (real numbers)", "why_tests_cant": "the equality cases and the limits are not reached by sampled descriptors", "anchors": ["descriptor/m2dp.cc: matchTwoM2dpDescriptors", "back_end/loop_detector.cc: 110-119"]}
{"id": "C121", "title": "Playback of KITTI files", "statement": "SetPointCloudDataPath and the loop over ReadNext deliver the files of the directory in the order of their names, each once, up to the first file without a complete point. The cloud of a file has one point for every four of its first million floats, in order. Every file read costs 4000000 bytes that are never freed. A path that does not exist aborts, one that is no directory plays nothing, a file that cannot be opened is undefined behaviour. That all files with points are delivered, that frames come in the order of their numbers, and that all points of a file are read are refuted.", "quantifier": "all directories, file contents, listing orders and receivers of clouds", "why_tests_cant": "recorded data has names of equal length, no empty files and about 120000 points per file", "anchors": ["ros_node/kitti_reader.cc: ReadFromFile, SetPointCloudDataPath, ReadNext", "ros_node/static_mapping_node.cpp: 431-451", "common/file_utils.cc: ListFilesInPath"]}
{"id": "C122", "title": "Which clouds a matcher uses", "statement": "After any sequence of SetInputSource, SetInputTarget and Align calls a matcher uses the last clouds it was given and did not ignore: NDT and NDT with GICP ignore empty clouds and forget their cloud on a null pointer, libpointmatcher ignores both, IcpFast ignores none. SetInputSource aborts exactly for a null pointer with IcpFast and for a cloud with a NaN point with libpointmatcher; SetInputTarget also for a cloud without normals with IcpFast. Without a cloud NDT reports failure and leaves result and score alone, NDT with GICP and IcpFast use a null pointer. So submaps without points have no defined match with NDT, and the front end takes the identity instead of the guess. That Align matches the cloud given last is refuted.", "quantifier": "all matchers, sequences of calls, clouds and library results", "why_tests_cant": "empty clouds, NaN points and missing clouds do not occur in tests of matching", "anchors": ["registrators/interface.cc: SetInputSource, SetInputTarget", "registrators/icp_pointmatcher.cc: SetInputSource, SetInputTarget", "registrators/icp_fast.cc: SetInputSource, SetInputTarget", "registrators/ndt.cc: Align", "builder/map_builder.cc: SubmapPairMatch, ScanMatchProcessing"]}
{"id": "C123", "title": "Which matches are used", "statement": "The scores of libpointmatcher, NDT with GICP and IcpFast are in (0, 1]. With libpointmatcher a pair of submaps takes the match iff the mean distance of the matched points is at most -ln of accepted_min_score, and keeps the guess otherwise; a loop is closed iff the mean distance is below -ln of accept_scan_match_score, and the score of its edge is that distance. NDT with GICP fails iff the NDT part has no score of at most 1; then the guess is kept. Without matches the score is NaN: Align reports success and the pair keeps the guess. The score of NDT is a squared distance: its matches are used iff the distance is at least the limit, so that a better match is used when a worse one is is refuted, as is that a match reported as failed is not used.", "quantifier": "all clouds, guesses, limits and library results (real numbers and NaN)", "why_tests_cant": "a score is just a number in a test; with NDT good matches are silently replaced by the guess", "anchors": ["registrators/ndt.cc: Align", "registrators/ndt_gicp.cc: Align", "registrators/icp_pointmatcher.cc: Align", "builder/map_builder.cc: SubmapPairMatch", "back_end/loop_detector.cc: CloseLoop"]}
{"id": "C124", "title": "The table of the profiler", "statement": "Under every schedule of the threads each profiled block is counted exactly once, under its name and thread and also when it is still running while the program ends; no timer uses a destroyed manager, and the table is printed only when no block is open, so that no row has an empty list of times. For times that are not negative the rows show count, minimum, maximum, sum and average rounded down, in the unit chosen; with merging one row per name covers all threads. A sum of 2^31 units or more is undefined behaviour. That the average is right for negative sums (clock set back) is refuted.", "quantifier": "all programs of nested blocks, all interleavings of any number of threads, all orders of iteration of the maps, all times", "why_tests_cant": "the end of the program is one race among many, and sums that large need long runs", "anchors": ["common/performance/simple_prof.h: SimpleTimer, TimerManager::Instance, REGISTER_BLOCK", "common/performance/simple_prof.cc: GetStatistics, RegisterTimer, ~TimerManager"]}
{"id": "C125", "title": "The output phase writes every frame once, and everything in the same coordinates", "statement": "After the last optimisation, with an export directory that can be written to: path.csv has exactly one row per frame of the trajectory, numbered from 0 in order, with the pose g * submap pose * pose in the submap, where g is the optimizer's GPS transform if GPS is enabled in the builder and in the optimizer and there is an estimate, and the identity otherwise; path.pcd has the same frames, and its intensities (the index as float) differ for up to 2^24 + 1 frames (not beyond: refuted). kitti_pose.txt and map.xml have one entry per submap with pose g * submap pose (not one per frame: refuted), the whole map has exactly the points of all frames at these frame poses, and the map package gets the submap clouds at these submap poses. All of it is in one coordinate system: with GPS the files are those written without GPS with every pose and point moved by g, so relative poses do not depend on GPS. enu_path.pcd and odom_path.pcd hold the positions of exactly the submaps that have them, and the raw paths all recorded positions. Poses the frames had before do not matter. The phase succeeds for fewer than 2^31 frames unless parts of size zero are asked for. If the directory does not exist no path or map file is written, and a combined map with a point ends the program with an exception.", "quantifier": "all trajectories, settings, transforms in any group acting on points, and recorded positions", "why_tests_cant": "a mix-up of coordinate systems between the outputs or of the frame count shows only when long runs with GPS are inspected by hand", "anchors": ["builder/map_builder.cc: ConnectAllSubmap (594-615), CalculateCoordTransformToGps, OutputPath, GenerateMapPackage, SaveMaps", "builder/trajectory.cc: OutputPathToPointcloud, ToXmlNode", "back_end/isam_optimizer.cc: GetGpsCoordTransform", "builder/data/data_collector.cc: RawGpsDataToFile, RawOdomDataToFile"]}
{"id": "C126", "title": "From the delivered clouds to the written files", "statement": "Under every schedule of the threads, whatever happened to the submaps after they were filled (moved by the optimizer, marked as matched, saved to disk, evicted, read back) and with or without GPS: path.csv and the whole map are made of the first frame_count * (number of submaps) key frames which scan matching makes of the clouds delivered to the collector, in order and each once. Row k is key frame k with the pose g * (pose of submap k / frame_count) * (pose of the first frame of that submap)^-1 * (pose of frame k), and the whole map is the points these key frames had when they were inserted, at these poses. The clouds of all frames can be read. The relative motion between two rows of the same submap is exactly the one scan matching found.", "quantifier": "all schedules, scan matchers, sequences of clouds, histories of the submaps after filling (without ClearCloudInFrames), optimizer results, and settings; nobody else writes the files of the frames", "why_tests_cant": "the claim spans all threads and modules; a test sees one schedule and small data that is not evicted", "anchors": ["builder/map_builder.cc: InsertPointcloudMsg, ScanMatchProcessing, SubmapProcessing, ConnectAllSubmap, OutputPath, SaveMaps", "builder/submap.cc: InsertFrame, SetMatchedTransformedToNext, UpdateInnerFramePose", "builder/frame.cc: Cloud, ToPcdFile", "builder/trajectory.cc: OutputPathToPointcloud"]}
{"id": "C127", "title": "The turn that the GPS estimate waits for", "statement": "In exact arithmetic AnalyseAllFramePoseForMaxRotation returns the largest angle, between 0 and pi, between the x axis of the first pose and that of another pose; the estimate waits iff all these angles are below the limit. For poses in the plane this is the angle of the turn; that it is the largest rotation is refuted (a rolled pose counts as not turned). In doubles the same holds as long as no scalar product of two axes leaves [-1, 1]. If one does, std::sort is undefined as soon as two poses have different angles. It can be that of the first pose with itself, although its quaternion has norm exactly 1: that the estimate waits while the vehicle stands still is refuted, for every limit.", "quantifier": "all lists of rotations (exact), all lists of columns of doubles, all functions acos with the NaNs of the standard one, all results of std::sort", "why_tests_cant": "whether the product of a unit vector with itself exceeds 1 depends on the last bits of the first pose", "anchors": ["back_end/isam_optimizer.cc: AnalyseAllFramePoseForMaxRotation, AddFrame (264-270)"]}
{"id": "C128", "title": "What is displayed while the map is built", "statement": "Under every schedule of the threads the display functions change nothing else: the threads go through states they also go through without them. Each call shows the state when submaps 0..m are connected: show_path gets exactly the current poses of submaps 0..m in order, show_map a random choice of the points of those of them that are less than 30 m away in the plane and 2 m in height from submap m, at their current poses (submap m always among them), show_submap the cloud and pose of submap m. show_submap is called once for each connected submap in order, except the first, which is never shown. At the end the last path shown is that of all connected submaps at their last poses. A crash beyond those of C77 is a read of the submap that is just being inserted by the loop for show_path or show_map, and that happens: with either function set undefined behaviour is reachable.", "quantifier": "all schedules, scan matchers, sequences of clouds, poses found by the optimizer, clouds, and sets of display functions; frame counts from 1 to 2^31 - 1", "why_tests_cant": "the read of an element under construction needs the submap thread to be interrupted inside of push_back while a map is shown", "anchors": ["builder/map_builder.cc: ConnectAllSubmap (484-557), SubmapProcessing, SetShowMapFunction, SetShowSubmapFunction, SetShowPathFunction, SetShowEdgeFunction", "pre_processors/filter_random_sample.cc: Filter"]}
{"id": "C129", "title": "What the node does with its arguments and messages", "statement": "For every command line, every surrounding (files, transforms, configuration) and every sequence of messages: the node ends with -1 exactly without a cloud topic or with both a bag and a KITTI folder that exist; it aborts exactly if the tracking frame is empty, a transform is missing (30 failed attempts, or no chain of fixed joints in the URDF) or the IMU frame is not upright. Started with a configuration and, if that uses the IMU, an IMU topic, it never calls the builder in an undefined way and never ends with an exception. At the end the builder has had all IMU messages of the topic in order, rotated into the tracking frame, and a subsequence of the clouds of the topic, moved into the tracking frame, with times cut to microseconds and without the points that are not finite unless the message is marked dense. Refuted: that it runs with default options without -cfg (undefined), that it stops cleanly without an IMU topic although the configuration uses the IMU (undefined), that odometry can be used (the first message aborts), that KITTI files are mapped with the IMU on (none is used).", "quantifier": "all command lines, all file systems, transforms and configurations, all message sequences of any length", "why_tests_cant": "the node needs a ROS master, sensors and a transform tree; the ends are process exits; the undefined ends may pass unnoticed", "anchors": ["ros_node/static_mapping_node.cpp: main, pointcloud_callback, imu_callback, odom_callback, gps_callback", "ros_node/tf_bridge.cc: LoopUpTransfrom", "ros_node/urdf_reader.cc: ReadStaticTransformsFromUrdf", "ros_node/msg_conversion.cc: ToLocalTime"]}
{"id": "C130", "title": "The score of the normal distributions transform and its derivatives", "statement": "In exact arithmetic, for every source cloud, every set of cells with symmetric positive semidefinite inverse covariances, every outlier ratio strictly between 0 and 1, positive resolution and parameters without angles strictly between 0 and 10e-5, and whatever thread takes which point: computeDerivatives returns the sum of the bell functions of the cells near the moved points, and as gradient exactly its partial derivatives in the six parameters. Each point scores positively in each of its cells and the test for invalid values drops none. The Hessian is the matrix of second derivatives in 35 of 36 entries; the entry for twice the pitch is off by an amount given (that the Hessian is right is refuted: h_ang_d1_ has the wrong sign). Angles below 10e-5 are treated as zero, so the derivatives of a point are then off by at most 5e-4 times its size (that they are exact is refuted). The Hessian of the line search is the same as that of computeDerivatives.", "quantifier": "all clouds, cells, search results, parameters, numbers of threads and assignments of points to them, over the reals", "why_tests_cant": "a wrong sign in one of 23 rows of trigonometric terms still converges, only more slowly or to a worse pose", "anchors": ["registrators/pclomp/ndt_omp_impl.hpp: computeTransformation (constants), computeDerivatives, computeAngleDerivatives, computePointDerivatives, updateDerivatives, computeHessian, updateHessian"]}
{"id": "C131", "title": "The Newton iteration of the normal distributions transform", "statement": "Whatever the numbers (doubles or reals), the score and the linear solver are: when step_size exceeds half of transformation_epsilon, as with the settings used, the line search never runs; each step has the length of the Newton step cut to the range from epsilon/2 to step_size, the score is evaluated once, at its end, and this place is the result. Over the reals the length is the same for all settings. The iteration ends after at most max_iterations + 2 steps, and converged_ is false only if the norm of the Newton step is not a number. Over the reals the direction never leads down, the result is at most (max_iterations + 2) * step_size away from the guess in the six parameters, and the transform returned is that of the parameters reached, or the guess if all steps were zero. Refuted: that converged_ means that the last step was below epsilon; that the result has the best score of the places evaluated (the step guarantees no increase).", "quantifier": "all number types with all operations, scores, gradients, Hessians, solvers, settings, starts", "why_tests_cant": "the missing line search shows only as slightly worse poses; the comment in the code says that it is skipped when the bounds are equal, which is the opposite", "anchors": ["registrators/pclomp/ndt_omp_impl.hpp: computeTransformation, computeStepLengthMT, updateIntervalMT, trialValueSelectionMT", "registrators/pclomp/ndt_omp.h: auxilaryFunction_PsiMT, auxilaryFunction_dPsiMT", "registrators/ndt.cc: Ndt, Align"]}
{"id": "C132", "title": "The grid of normal distributions of the NDT registration", "statement": "For all clouds that pass the size test, after filter the search by cells returns for each relative cell exactly the leaf built from all usable points of the new cloud in that cell (if there are enough), never one of another cell or an older cloud; the search by radius returns for each centroid found the leaf of its cell, and there is one centroid per cell with enough points. No integer overflows if the cloud lies in a box of less than 2^31 cells. Over the reals a leaf with at least two points is never rejected, its mean is that of its points, its covariance is symmetric and positive with the inverse stored, and the ratio of its values is at least the one set. Refuted: that the covariance is that of the points: the accumulator starts at the identity, so that every leaf has at least the variance (n-1)/n^2 (in square metres) along every direction, and (n-1)/n is the wrong way round; that the size test prevents overflows; that a cloud refused by the size test leaves nothing of the one before (the search by cells finds the old leaves, the search by radius reads out of bounds); that a point of the cloud is found in its own cell (product with the inverse against quotient, in floats); that the search of the 26 neighbours sees the cell of the point.", "quantifier": "all clouds, number types with monotone cells (proved for binary32 with rounding and every positive inverse leaf size), leaf sizes, previous states, queries, eigensolvers", "why_tests_cant": "the thickness only makes the registration less precise; tests have no cloud at the limit of the index range and no second target after a refused one", "anchors": ["registrators/pclomp/voxel_grid_covariance_omp_impl.hpp: applyFilter, getNeighborhoodAtPoint, getNeighborhoodAtPoint7, getNeighborhoodAtPoint1", "registrators/pclomp/voxel_grid_covariance_omp.h: Leaf, filter, radiusSearch", "registrators/pclomp/ndt_omp.h: init"]}
{"id": "C133", "title": "The start of the NDT registration stands for the guess", "statement": "In exact arithmetic, for every rigid guess (including the identity and the poles of the Euler angles): before the first score the transform is the guess, the cloud is the input moved by it, and the six parameters stand for exactly this motion; so the first score is that of the guess and the first gradient its derivative (if no angle is nearly zero), and the transform returned is always the motion of the parameters reached, also if no step is taken. The angles are in [0, pi), [-pi, pi) and [-pi, pi). Refuted: that a guess that turns little has small angles (a small negative turn about x gives three angles near pi); that the parameters stand for a guess that is not rigid (cloud and transform are scaled, the parameters are not).", "quantifier": "all rigid guesses, input clouds, cells, scores, settings, over the reals", "why_tests_cant": "the case distinction of the Euler angles changes at the sign of a small roll, and the poles have measure zero", "anchors": ["registrators/pclomp/ndt_omp_impl.hpp: computeTransformation (96-115)", "registrators/ndt.cc: Align"]}
{"id": "C134", "title": "The plane detector and the sampler that keeps planes", "statement": "For every first cloud (indices of voxels in the range of int, heights up to 1e9): the detector returns exactly the points of voxels that are planes, each once - with the least number of points and, at or below the height of the sensor, all heights within the threshold, or above it, with twice as many points, those of a segmentation with enough inliers. The sampler then keeps points of the input in their order, all points of planes, and of every prefix the set share (rounded up) of the others - if the last point of the cloud is in a plane; otherwise it reads the front of an empty vector. The rate stays within [1e-6, 1]. Points of a voxel differ by less than two leaves in height, less than one away from height zero. Refuted: that a detector or sampler can be used for a second cloud (the voxels are never cleared: indices outside of the cloud, or planes thinned like the rest); that a cloud can be filtered in place (it is emptied before it is read); that a voxel is as large as the leaf.", "quantifier": "all clouds, thresholds, leaf sizes, segmentations, rates; comparison of quotients anywhere between two rates", "why_tests_cant": "a test cloud usually ends on the ground, and tests construct a new filter for each cloud", "anchors": ["pre_processors/plane_detector.h: PlaneDetector", "pre_processors/random_sample_with_plane_detect.h: RandomSamplerWithPlaneDetect"]}
{"id": "C135", "title": "The log of the process profiler", "statement": "For all texts of /proc of the documented form: the processor time read is utime+stime+cutime+cstime of the process if its name has no blank, and the total is user+nice+system+idle; the percentage is 100 times the quotient of the differences, not negative, and at most 100 if the process did not get more time than there was; from the status file come the last name (to its first blank), sizes and number of threads, and lines without these keys change nothing. The log has one line for each round in which the status could be read, in their order, with the values of its own round, and its file is named after the process, in the log directory if that could be made. Refuted: that the time is that of the process for every name (k blanks in the name: the four numbers k places before; eleven: undefined); that the percentage is at most 100 (a child that ends adds all its time at once); that an unreadable file shows as zero (above 1e14 percent; undefined for an empty one); that profiling does no harm (no entry for the user, as in containers, or no status: undefined; a word of 64 characters or a name of 256 overruns a buffer; a status without sizes, as kernel threads have, writes unset numbers). Each call of fgets gives a line or a full buffer of it, and together they give the text; sizes beyond an int are undefined, lines without a number change nothing.", "quantifier": "all process numbers, names, numbers, other lines, rounds, home directories", "why_tests_cant": "the names of test programs have no blanks, and their user exists", "anchors": ["common/performance/process_info.cc: GetItems, GetCpuTotalOccpy, GetCpuProcOccpy, GetProcCpu, GetProcStatus, Run", "common/performance/simple_prof.h: profiler_"]}
{"id": "C136", "title": "Which points the check of points lets through", "statement": "In binary32 with rounding, for all points: CheckPoint is true just if FATAL_CHECK_POINT does not abort. Points that pass have finite coordinates, each below 1e8 in size; every point up to 9 metres below the limit of 1e8 passes and every one from 9 metres above it is refused; a point nearer to the origin in every coordinate than one that passes does pass too. A cloud passes if all its points do. Building a submap with enable_check gives just the cloud without the check if all points of all frames pass, and ends the process otherwise; of n frames the points of the first are looked at n times, as the sum and not the new cloud is checked each time. With the inner voxel map the cloud is always empty and only the checks remain. Refuted: that the limit is exact (a point 2.4 metres beyond it passes, one 5.2 metres before it is refused); that only the origin has length zero.", "quantifier": "all floats including infinities, NaN, zeros, overflow and underflow of squares; all clouds, all numbers of frames", "why_tests_cant": "the rounding at the limit shows for few points of 2^96; the repeated check only costs time", "anchors": ["common/point_utils.h: Length, CheckPoint, FATAL_CHECK_POINT, FATAL_CHECK_CLOUD", "builder/submap.cc: InsertFrame (98-133)"]}
{"id": "C137", "title": "The conversion to LAS and the sampler of clouds", "statement": "pcd_to_las, for all clouds of below 2^31 points: one point is written for each point of the cloud, in order, with the numbers stored in the last field named x, y or z, and 0 where there is none or its type is neither float nor double; numbers arrive unchanged (the bytes of a float or double give that number, and a float as double has its value). If a field of a point reaches behind the end of the data the behaviour is undefined, otherwise the conversion succeeds. pcd_sampler, for ratios from 0 to 1 and up to 2^31-128 points: the number of points written is the ratio of the size up to one point and a relative 2^-22, and not more than the size; a ratio of 1 or more, and also a negative one, keep all of up to 2^24 points; NaN and infinities are undefined behaviour; the default ratio ends the program for fewer than 20 points if PCL does not write empty clouds. Refuted: that every point is converted (2^31 to 2^32-1 points give an empty file, and so do 2^16 times 2^16); that failing to read the input is noticed (an empty file replaces the output, exit code 0); that a ratio of 1 keeps every point (2^24+1 points).", "quantifier": "all layouts of fields, byte strings, numbers of points, ratios in binary32", "why_tests_cant": "tests use the layout of one file; the counts go wrong above 2^24 and 2^31 points", "anchors": ["tools/pcd_to_las.cc: main, get_field_value_f", "tools/pcd_sampler.cc: main"]}
{"id": "C138", "title": "Odometry messages as poses", "statement": "Over the real numbers, for all messages: SetPose followed by PoseInMatrix gives every rigid pose back, with a quaternion of length 1 and nothing else changed. A ROS message arrives with stamp, pose, twist and covariances, without its child frame. The quaternion is not normalised: one of squared length n moves a vector n times as far as its rotation does, an error of at most 2|n-1| of the vector, and one without vector part (0 0 0 0 too) is the identity; the pose is rigid just if n is 1 or the vector part is zero, and cannot be inverted just if the scalar part is 0 and n is 1/2. A series of messages is stored as one pose each with its stamp, the first as identity, and the first pose times a stored one is that of the message; squared distances of stored positions are off by at most 4|n-1|n of them with n of the first message, exact for n=1. Refuted: that stored distances are those of the messages for every quaternion (1 0 0 1 shrinks them by the root of 5); that SetPose of a message's own pose keeps its quaternion (it may become its negative).", "quantifier": "all positions, quaternions, numbers of messages", "why_tests_cant": "recorded messages have quaternions of length 1 up to rounding", "anchors": ["builder/data/data_types.cc: PoseInMatrix, SetPose", "ros_node/msg_conversion.cc: ToLocalOdom", "ros_node/tf_bridge.cc: GeometryTransformToEigen", "builder/data/data_collector.cc: AddSensorData(const OdomMsg&)"]}
{"id": "C139", "title": "The parts of the line search of the normal distributions transform", "statement": "Over the real numbers: from a lower place to a higher one the cubic interpolation gives the minimum of the cubic with the values and slopes of both ends (there is always one such cubic; the only exception is a maximum halfway), and the secant gives the vertex of the parabola with the two slopes. With a falling slope at the lower end: if the new value is higher, or the slope has changed its sign, the cubic has a minimum between the ends, and so is the next place to try - the minimum of the cubic if it is nearer than the vertex of the parabola, else the middle of both; or the one further from the new place; if the slope is less steep, the nearer one, but at most 66 % of the way to the other end. Updating the interval with a place inside it keeps that the lower end has the lower value and the function falls from it into the interval, makes the interval smaller, makes the lower end the better of the old one and the new place; it converges only where the slope is zero. Such an interval holds a point of slope zero and lower value of every differentiable function. The search stops just if the value is below the line of a ten-thousandth of the first slope and the slope is at most 9/10 of the negative first one. Refuted: that the interpolation gives a minimum from a higher to a lower place (it is the maximum), hence in the fourth case with the other end ahead; that the slope where the search stops is small (it may fall ever so steeply); that the values of the ends are converted back from the auxiliary function (they are off by 2 mu g0 a).", "quantifier": "all places, values, slopes, cubics and differentiable functions", "why_tests_cant": "the interval is searched only if the step is cut to its minimum (C131), and the wrong extremum is then cut as well", "anchors": ["registrators/pclomp/ndt_omp_impl.hpp: updateIntervalMT, trialValueSelectionMT, computeStepLengthMT", "registrators/pclomp/ndt_omp.h: auxilaryFunction_PsiMT, auxilaryFunction_dPsiMT"]}
{"id": "C140", "title": "The export of the voxel map", "statement": "For all scans inserted, thresholds from 0 to below 1 and sizes of voxels: with averages the export has exactly one point for each voxel whose probability reaches the threshold, the mean of the points of the voxel with its largest intensity (0 if that is not asked for); the mean lies in its voxel, so no two exported points share one. Without averages all points of these voxels are exported, with their own intensity or the largest of the voxel. The coloured export has the same positions and shape, and the grey of the largest intensity: 255 from 183 on, below that 7/5 of it, cut; it never falls with the intensity. A file is written just if some voxel reaches the threshold, in the asked format and compression. A null pointer or a threshold of 1 or more is undefined. Refuted: that the grey is 1.4 times the intensity where that is whole (45 gives 62 for 63, and so for six more intensities, by binary64 rounding); that width and height describe the cloud (without averages both are 0, whatever points it has).", "quantifier": "all points, scans, numbers of points in a voxel, thresholds", "why_tests_cant": "the wrong width shows only in readers that use it; colours are not compared with the intensity", "anchors": ["builder/multi_resolution_voxel_map.cc: OutputToPointCloud (125-200), OutputToFile"]}
{"id": "C141", "title": "The largest intensity of a voxel with several threads", "statement": "For all numbers of threads, orders of steps and intensities, with comparison and store as separate atomic steps: if only one thread has points in the voxel, the stored intensity is the largest. With several it is one of the points' intensities or the one before, never lower than before and never above the largest; it is at least the last intensity of some thread. The threads never block each other. Refuted: that it is the largest (both threads have a point of intensity 100, and 2 remains).", "quantifier": "all numbers of threads and interleavings", "why_tests_cant": "the loss needs two threads between the comparison and the store at the same time", "anchors": ["builder/multi_resolution_voxel_map.cc: InsertPointCloud (95-98)", "common/atomic_wrapper.h: AtomicWrapper"]}
{"id": "C142", "title": "Numbers of path.csv", "statement": "For all floats and doubles, printed by std::to_string: read back, the text is the multiple of a millionth nearest to the number (an even one between two), so the error is at most half a millionth, there is none for whole numbers of millionths, the order is kept, and numbers more than a millionth apart have different texts; floats of 16 or more all have different texts. Infinities and NaN are no number. path.csv of a trajectory has one line for each frame, with its number and the six numbers of its pose between commas, and path.csv of the tool path_statistic one line for each point with its four numbers. The tool ends with 0 just if the cloud could be read. Refuted: that floats of 8 or more have different texts; that 0 means the file was written. Every number below half a millionth is 0.000000 or -0.000000.", "quantifier": "all binary32 and binary64 numbers, all numbers of rows", "why_tests_cant": "rounding to decimals shows only in the last digit; path files are looked at, not read back", "anchors": ["builder/trajectory.cc: OutputPathToPointcloud (117-126)", "tools/path_statistic.cc: main"]}
{"id": "C143", "title": "Numbers of kitti_pose.txt", "statement": "For all doubles, printed with std::setprecision(8): read back, the text is the number of eight decimal digits nearest to it, so the error is at most 5e-8 of it, and there is none if eight digits are enough. kitti_pose.txt has one line for each submap, with the twelve numbers of the first three rows of its matrix in order, between blanks. Refuted: that positions are exact to the millimetre (from 100 kilometres on they may be off by 4 millimetres).", "quantifier": "all binary64 numbers including subnormal ones, all numbers of submaps", "why_tests_cant": "test tracks stay near the origin", "anchors": ["builder/map_builder.cc: OutputPath (627-641)"]}
{"id": "C144", "title": "The best rigid motion between matched clouds", "statement": "Over the real numbers, for all matched clouds and weights with a positive sum, and every singular value decomposition the library may give: ComputePointToPoint returns a rigid motion - a mirroring result is repaired - that takes the weighted mean of the source to that of the target, and no rigid motion has a smaller weighted sum of squared distances. A target that is a moved copy of the source is met by every point with weight, and the motion is found exactly if three of them are not on a line. It aborts just if the clouds have different numbers of points, and is undefined for another number of weights. The clouds of the caller are shifted so that their weighted mean is 0. Refuted: that the result is best for all weights (not if their sum is negative); that it aligns the clouds the caller has afterwards.", "quantifier": "all clouds, weights, rigid motions and decompositions", "why_tests_cant": "optimality is over all rigid motions; the repair is needed only for flat or noisy clouds", "anchors": ["registrators/icp_fast.cc: ComputePointToPoint"]}
{"id": "C145", "title": "The best plane through points", "statement": "Over the real numbers, for all lists of two or more points and every singular value decomposition the library may give: PlaneFitting returns the centroid and a normal of length 1, and no plane has a smaller sum of squared distances from the points. Points of a common plane, such as any two or three points, all lie on the result. For fewer than two points all six numbers are the largest of the type. The side the normal points to is left to the decomposition. Refuted: that the points determine the plane (two points are accepted, and two decompositions give perpendicular normals).", "quantifier": "all lists of points, planes and decompositions", "why_tests_cant": "optimality is over all planes; the choice of the decomposition is fixed in a test", "anchors": ["common/math.cc: PlaneFitting"]}
{"id": "C146", "title": "Odometry, gravity and rough velocity in the pose extrapolator", "statement": "For all histories of calls on a PoseExtrapolator: without odometry the extended object behaves as that of C36, C37, C75 and C76. In the mode without IMU odometry has no effect, and EstimateGravityOrientation is the level orientation. With IMU: before the first pose all odometry is kept; once there is a pose and one message was added, every further AddOdometryData aborts if older than the newest pose and has undefined behaviour otherwise (it makes a 3 x 3 matrix of a 3 x 1 block); with two messages added before the first pose the linear velocity from odometry, never computed, stays zero, so every newly extrapolated position is that of the newest pose; EstimateGravityOrientation is undefined before the second pose. After InitRoughLinearVelocity the next newly extrapolated position moves with that velocity, unless two messages were added. Refuted: that an object given odometry extrapolates the motion of its poses as one without does.", "quantifier": "all histories, times, poses and velocities", "why_tests_cant": "no caller in the project reaches these functions", "anchors": ["builder/pose_extrapolator.cc: AddOdometryData, TrimOdometryData, EstimateGravityOrientation, InitRoughLinearVelocity"]}
{"id": "C147", "title": "The graph of joined maps", "statement": "For all base maps with a submap and all lists of incremental maps, as the program writes them, with at most 2^24 trajectories of at most 2^32 submaps, and every loop detector that keeps to its search window: LoadBaseMap and LoadIncrementalMap do not fail, the solver is given every submap once with the pose of its file and under a key of its own, and every connection once, between the submaps it was made for and with their relative pose. Loops lead from a submap of the base map, never its last one, to a submap of an incremental map, never between incremental maps. Different ids have different keys; the solver refuses those of trajectories from 2^24 on. A file that cannot be read aborts, and a second base map throws. Refuted: that a prior is given once (it is given again with every later submap until the first connection); that an empty base map can be joined.", "quantifier": "all maps, numbers of maps, poses, detectors and solvers", "why_tests_cant": "a wrong key or connection shows only as a bent map; the classes are not part of the build", "anchors": ["back_end/multi_trajectory/multi_trajectory_optimizer.cc: AddSubmap, AddSubmapConnection, AddVertex, UseCurrentStateAsBaseMap, SubmapIdToUint64", "builder/multi_trajectory/multi_trajectory_map_builder.cc: LoadBaseMap, LoadIncrementalMap"]}
{"id": "C148", "title": "The joined map", "statement": "Under the hypotheses of C147, for all submaps of all files: the joined map has the trajectories of the files one after the other, each with as many submaps as in its file; a submap has the id of its place and the connections of its file, moved along with the ids. Only submaps of the base map have further connections, and only to submaps of incremental maps. Every connection leads to a submap of the joined map. Saving it never fails and gives a file with every submap at its place, with its pose and connections; with that as base map further maps can be joined without a failure.", "quantifier": "all maps, numbers of maps, poses, detectors and solvers", "why_tests_cant": "ids are rewritten in place while the connections of other submaps still use the old ones", "anchors": ["builder/multi_trajectory/multi_trajectory_map_builder.cc: LoadBaseMap, LoadIncrementalMap", "back_end/multi_trajectory/multi_trajectory_optimizer.cc: AddSubmapConnection, RunFinalOptimizing", "builder/trajectory.cc: ToXmlNode"]}
{"id": "C149", "title": "The tracker of IMU and GPS", "statement": "For all histories of IMU messages with increasing stamps and of GPS positions, all optimizers and predictions: ImuGpsTracker never fails; its graph has the three priors and, for every position, an IMU factor from the state before with exactly the measurements that came between the two positions, in order, integrated with the bias found for the state before, a bias factor and the position; initial values are the prediction from the state found before, every variable is given once, and every state is the result of the optimizer for the graph up to it. All measurements together last from the first message to the newest, and one IMU period; no duration is zero or negative. A message not later than the one before aborts, and so does odometry. Refuted: that messages in the wrong order are always refused (one nanosecond counts as no time); that the tracker starts at rest (the prior velocity is never initialised).", "quantifier": "all histories, sensors' values, optimizers", "why_tests_cant": "the segments depend on the interleaving of two sensors; an uninitialised vector is often zero in a test", "anchors": ["builder/sensor_fusions/imu_gps_tracker.cc: ImuGpsTracker, AddImuData, AddGpsData", "builder/sensor_fusions/imu_gps_tracker.h: AddOdomData"]}
{"id": "C150", "title": "The hash of voxels and pixels", "statement": "For all keys of 32 bit integers: keys that differ only in their last element (the voxels of a column, the pixels of a row) have different hashes, so of each of these at most one has a given hash. Refuted: that different voxels have different hashes ((5, -10, -2) and (5, -7, 0)). All 115200 pixels of a range image of 64 rows and 1800 columns fall into 8192 hashes; 30 of them have the same.", "quantifier": "all keys; all pixels of an image", "why_tests_cant": "collisions change only the time of a lookup", "anchors": ["common/eigen_hash.h: hash::operator()"]}
{"id": "C151", "title": "The residuals of GPS and odometry against a path", "statement": "For all positions, poses, directions and parameters, over the reals: the residual of GpsEnuToMapPath is zero exactly when the turned and moved position is the map's, which for every angle one translation reaches; else it is the distance to that translation. in_map keeps distances and orientation. For a normal of length one GpsEnuToMapPathNormal is the least distance to the line through the map's position along the normal. GpsEnuToMap3D and OdomToMapPath are the least distance of the position to the line along the direction, zero exactly on it, and without a direction the distance to the map's position; only the direction matters, and GPS does not notice a move along it. The position of odometry, turned by the mounting, is what the motion does with the lever arm; a part of the lever arm along an axis that the motion does not turn is not noticed, and without a turn none. Refuted: that the residual with a normal is the distance to the plane, as its comment says; that only the direction of that normal matters; that the residual has a derivative at an exact match.", "quantifier": "all positions, poses, directions, angles", "why_tests_cant": "only a solver calls these; a wrong residual still has a minimum", "anchors": ["builder/cost_functions/gps_map_match.h: GpsEnuToMapPath, GpsEnuToMapPathNormal, GpsEnuToMap3D", "builder/cost_functions/odom_map_match.h: OdomToMapPath"]}
{"id": "C152", "title": "The alignment of several clouds", "statement": "For all clouds, poses, correspondences and solvers that give a pose for every cloud: null clouds are ignored and others kept in order. A first AlignAll gives for every frame its cloud, moved by its pose, with a pose of the solver, in order; the solver's graph has an edge exactly for the pairs of frames with more than two correspondences of the clouds as given, whatever earlier iterations found, and the clouds five times, the copies without edges. Every later call outputs the clouds that were entered first. Refuted: that a cloud added after a call is part of the next result (the first cloud is there twice).", "quantifier": "all numbers of frames, clouds, solvers", "why_tests_cant": "the output looks like an alignment; copies show only in the solver's graph", "anchors": ["registrators/multiview_registrator_lum_pcl.h: AlignAll", "registrators/multiview_registrator_interface.h: AddNewCloud"]}
{"id": "C153", "title": "The match of GPS positions with a path in the plane", "statement": "For all angles, moves and paths, over the reals: if every GPS position, turned and moved, is the map's, and two positions half the path apart are at least 5 m apart, the first estimate of MapGpsMatcher<2> is that turn and that move; with a solver that finds zero where nothing is left to do, RunMatch returns the inverse: it takes every position of the map to its GPS position, and OutputError places every GPS position where the map has it. RunMatch never fails, whatever the data and the solver, and gives the identity when no pair is far enough apart; its result is always a turn and a move. A row of the linear problem is the derivative of the offset along the normal of the direction with respect to the angle and the move; an iteration turns and moves every position by what the solver finds. Refuted: that the first estimate is as good as the data (two pairs turn by less than 6 degrees to either side, no position is off by more than 1 m, and the average of the angles is half a turn).", "quantifier": "all data, angles, moves, solvers", "why_tests_cant": "the average of angles fails only where they pass a full turn; the class is not part of the build", "anchors": ["back_end/deprecated/map_gps_matcher.cc: InsertPositionData, RunMatch, OutputError"]}
{"id": "C154", "title": "The mounting of the odometry from the submaps", "statement": "For all trajectories and solvers, over the reals: OfflineCalibrationOdomToLidar aborts for null pointers, returns false and leaves the result alone exactly when there are less than two submaps or none has odometry, and otherwise gives the solver one residual for every submap with odometry, in order, starts it from the first estimate (and gives that back if the solver stays there, away from pitch +-90 degrees) and returns a rigid transform. If the odometry moves as the submaps do, seen from its mounting, the right mounting has no residual. The direction of a submap has length one and is its first axis with the sign of z changed; it is the first axis for level submaps. Refuted: that it is the first axis for all submaps.", "quantifier": "all trajectories, first estimates, solvers", "why_tests_cant": "the direction is wrong only on slopes; the function is not part of the build", "anchors": ["builder/deprecated/offline_calibration.cc: OfflineCalibrationOdomToLidar"]}
