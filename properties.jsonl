{"id": "C01", "title": "Reader/writer lock mutual exclusion", "statement": "While some thread is between a return from acquireWriteLock() (or a successful upgradeToWriteLock()) and its releaseWriteLock(), no other thread is between a return from acquireReadLock() and its releaseReadLock(), and no other thread holds the write lock.", "quantifier": "for every number of threads, every program of lock calls that releases only what it holds, every interleaving and every pattern of (also spurious) wake-ups", "why_tests_cant": "a violation needs one particular interleaving of the critical sections of several threads; a test samples a handful of schedules", "anchors": ["aslam_cv_common/src/reader-writer-lock.cc: acquireReadLock, releaseReadLock, acquireWriteLock, releaseWriteLock, upgradeToWriteLock"]}
{"id": "C02", "title": "Reader-first lock mutual exclusion", "statement": "The reader-preferring variant of the lock gives the same exclusion guarantee: a writer excludes every reader and every other writer, also when upgrades are mixed in.", "quantifier": "for every number of threads, lock-call program, interleaving and wake-up pattern", "why_tests_cant": "depends on the schedule; tests only sample schedules", "anchors": ["aslam_cv_common/src/reader-first-reader-writer-lock.cc: ReaderFirstReaderWriterMutex::acquireReadLock, acquireWriteLock", "aslam_cv_common/src/reader-writer-lock.cc"]}
{"id": "C03", "title": "Upgrade is atomic and unique", "statement": "Of all threads trying to upgrade a read lock at overlapping times at most one succeeds; from the moment its upgrade request is registered until it holds the write lock no other thread obtains the write lock, so what it read is still valid; an upgrader that is refused has lost its read lock (it must not release it again).", "quantifier": "for every number of threads, program, interleaving and wake-up pattern", "why_tests_cant": "a second writer slipping in between read and write phase only shows for specific interleavings", "anchors": ["aslam_cv_common/src/reader-writer-lock.cc: upgradeToWriteLock, acquireWriteLock"]}
{"id": "C04", "title": "No lost wake-up in the reader/writer lock", "statement": "There is no deadlock and no lost wake-up: in every reachable state in which no thread holds the lock (for reading or writing) but some thread is inside a lock call, at least one of these threads can take a step without a spurious wake-up, and a sleeping thread whose wait condition has become false has always been notified.", "quantifier": "for every number of threads, program, interleaving and wake-up pattern", "why_tests_cant": "a hang is a property of infinite schedules; a test can only time out", "anchors": ["aslam_cv_common/src/reader-writer-lock.cc", "aslam_cv_common/src/reader-first-reader-writer-lock.cc"]}
{"id": "C05", "title": "isInUse() reports every use of the lock", "statement": "isInUse() returns true whenever some thread holds the lock or waits for it (so that the lock may safely be destroyed when it returns false).", "quantifier": "for every reachable state of the lock and both lock classes", "why_tests_cant": "must hold in every reachable state, including transient ones between wake-up and re-acquisition", "anchors": ["aslam_cv_common/src/reader-writer-lock.cc: isInUse", "aslam_cv_common/src/reader-first-reader-writer-lock.cc"]}
{"id": "C06", "title": "Tasks of one group never overlap", "statement": "Two tasks enqueued with the same exclusivity group id are never executed at the same time.", "quantifier": "for every number of worker threads, task sequence, group assignment and interleaving", "why_tests_cant": "overlap depends on the schedule", "anchors": ["aslam_cv_common/include/aslam/common/thread-pool.h: enqueueOrdered", "aslam_cv_common/src/thread-pool.cc: run"]}
{"id": "C07", "title": "Tasks of one group run in submission order", "statement": "Tasks of the same exclusivity group are started (and therefore, as they never overlap, finished) in the order in which they were enqueued; tasks without a group are started in their enqueue order relative to each other.", "quantifier": "for every number of workers, task sequence and interleaving", "why_tests_cant": "order violations need specific schedules", "anchors": ["aslam_cv_common/src/thread-pool.cc: run", "aslam_cv_common/include/aslam/common/thread-pool.h: enqueueOrdered"]}
{"id": "C08", "title": "Accepted tasks are executed exactly once", "statement": "A task accepted by enqueue() (one that is in the queue when the call returns) is executed at most once; and when all workers have terminated after stop or destruction every task that was in the queue when the stop flag was set has been executed exactly once.", "quantifier": "for every number of workers >= 1, every task sequence and interleaving including the stop request", "why_tests_cant": "loss or duplication of a task depends on the interleaving", "anchors": ["aslam_cv_common/src/thread-pool.cc: run, ~ThreadPool, stop", "aslam_cv_common/include/aslam/common/thread-pool.h: enqueue"]}
{"id": "C09", "title": "waitForEmptyQueue() means idle", "statement": "When waitForEmptyQueue() observes its exit condition there is no queued and no executing task.", "quantifier": "for every reachable state of the pool", "why_tests_cant": "needs every interleaving of workers finishing and tasks being queued", "anchors": ["aslam_cv_common/src/thread-pool.cc: waitForEmptyQueue, run"]}
{"id": "C10", "title": "Workers never oversleep", "statement": "Whenever a queued task is startable (its group is idle or it has no group), it is not the case that all workers sleep un-notified; and a thread in waitForEmptyQueue is notified when the pool becomes idle. So queued tasks are always eventually executed and the waiter returns.", "quantifier": "for every number of workers, task sequence and interleaving", "why_tests_cant": "a lost wake-up is a hang under one specific schedule", "anchors": ["aslam_cv_common/src/thread-pool.cc: run, waitForEmptyQueue", "aslam_cv_common/include/aslam/common/thread-pool.h: enqueueOrdered"]}
{"id": "C11", "title": "A valid future is eventually fulfilled", "statement": "If enqueue() returns a valid future while the pool is being stopped, the task behind the future is eventually run (otherwise an invalid future is returned).", "quantifier": "for every interleaving of enqueue() with stop()", "why_tests_cant": "requires stop() to fall between the unlocked check of the stop flag and the insertion", "anchors": ["aslam_cv_common/include/aslam/common/thread-pool.h: enqueueOrdered", "aslam_cv_common/src/thread-pool.cc: stop, run"]}
{"id": "C12", "title": "Synchronised images lie within the tolerance", "statement": "Every multi-camera frame emitted by VisualNPipeline consists of exactly one image per camera of the rig, each of which was submitted for that camera, and all timestamps of the frame differ from the frame's group time by at most the tolerance (so pairwise by at most twice the tolerance).", "quantifier": "for every rig size, every sequence of processed images (any camera order, any timestamps) and every interleaving with the getters", "why_tests_cant": "any history of arrivals matters; the space is infinite", "anchors": ["aslam_cv_pipeline/src/visual-npipeline.cc: work, getNext, getLatestAndClear"]}
{"id": "C13", "title": "Images are grouped with the nearest group", "statement": "An image is added to an existing pending group exactly if the closest pending group is within the tolerance, and then it is added to a closest one (the earlier one on a tie); otherwise it opens a new group at its own timestamp.", "quantifier": "for every set of pending groups and every timestamp", "why_tests_cant": "nearest-neighbour search over an ordered map has many boundary cases", "anchors": ["aslam_cv_pipeline/src/visual-npipeline.cc: work (215-275)"]}
{"id": "C14", "title": "Completed frames come out in time order", "statement": "getNext() returns the oldest completed frame first, a pending group never stays pending once it and all older groups are complete, and no completed frame is left behind an older incomplete one; the sequence of frames returned by successive getNext() calls is increasing in time as long as images arrive in time order per group.", "quantifier": "for every arrival history and getter interleaving", "why_tests_cant": "depends on arrival history", "anchors": ["aslam_cv_pipeline/src/visual-npipeline.cc: work (277-332), getNext"]}
{"id": "C15", "title": "No complete multi-frame is lost", "statement": "A group for which an image of every camera has arrived is eventually delivered by getNext() (if the user keeps calling it) and only incomplete groups are dropped when the pipeline gives up waiting.", "quantifier": "for every arrival history", "why_tests_cant": "loss depends on a pattern of incomplete and complete groups", "anchors": ["aslam_cv_pipeline/src/visual-npipeline.cc: work (277-315)"]}
{"id": "C16", "title": "shutdown() releases blocked producers and consumers", "statement": "After shutdown() every thread blocked in processImageBlockingIfFull / getNextBlocking / getLatestAndClearBlocking returns.", "quantifier": "for every interleaving of shutdown() with the blocking calls", "why_tests_cant": "requires the flag to be set between a waiter's check and its wait", "anchors": ["aslam_cv_pipeline/src/visual-npipeline.cc: shutdown, processImageBlockingIfFull, getNextBlocking"]}
{"id": "C17", "title": "Matrix channels survive serialization", "statement": "Deserializing the serialization of a matrix channel yields an equal matrix (rows, columns, every coefficient), and the byte size is 16 + rows*cols*sizeof(scalar).", "quantifier": "for every matrix size and content", "why_tests_cant": "all sizes and all contents", "anchors": ["aslam_cv_common/include/aslam/common/channel-serialization.h: serializeToBuffer/deSerializeFromBuffer for Eigen::Matrix"]}
{"id": "C18", "title": "Malformed matrix buffers are rejected", "statement": "For every byte buffer, matrix deserialization either fails or returns a matrix whose re-serialization is exactly the buffer; it never reads outside the buffer.", "quantifier": "for every byte string", "why_tests_cant": "all byte strings, in particular hostile headers", "anchors": ["aslam_cv_common/include/aslam/common/channel-serialization.h", "aslam_cv_common/src/channel-serialization.cc: deSerializeHeader"]}
{"id": "C19", "title": "Vector-of-matrix channels survive serialization", "statement": "Deserializing the serialization of a vector of matrices yields the same vector, and no buffer makes the deserializer read out of bounds.", "quantifier": "for every vector length and content / for every byte string", "why_tests_cant": "all lengths, all byte strings", "anchors": ["aslam_cv_common/include/aslam/common/channel-serialization.h: serializeToBuffer/deSerializeFromBuffer for std::vector<Eigen::Matrix>"]}
{"id": "C20", "title": "Image channels survive serialization and reject malformed buffers", "statement": "Deserializing the serialization of an image yields the same image; for any buffer the deserializer never writes outside the image it allocates.", "quantifier": "for every image of supported depth / every byte string", "why_tests_cant": "header fields are attacker-controlled 32-bit values; products wrap", "anchors": ["aslam_cv_common/include/aslam/common/channel-serialization.h", "aslam_cv_common/src/channel-serialization.cc: serializeToBuffer/deSerializeFromBuffer for cv::Mat"]}
{"id": "C21", "title": "Hash id hexadecimal text form round-trips", "statement": "fromHexString(hexString(id)) restores id; hexString is injective, always 32 lower-case hexadecimal digits; fromHexString rejects every string of another length.", "quantifier": "for every 128-bit id / every string", "why_tests_cant": "2^128 ids", "anchors": ["aslam_cv_common/include/aslam/common/hash-id.h: hexString, fromHexString"]}
{"id": "C22", "title": "Ids generated from integers are distinct", "statement": "generateIdFromInt maps different integers to different ids, and a valid id results for every integer but 0.", "quantifier": "for every unsigned 32-bit argument", "why_tests_cant": "range and digit-shifting scheme", "anchors": ["aslam_cv_common/src/unique-id.cc / internal/unique-id.cc: generateUniqueIdFromInt", "aslam_cv_common/include/aslam/common/unique-id.h: generateIdFromInt"]}
{"id": "C23", "title": "Generated ids are unique and valid", "statement": "All ids drawn from the generator in one process are pairwise different and valid.", "quantifier": "for every number of draws below 2^64 and every interleaving of drawing threads", "why_tests_cant": "uniqueness over 2^64 draws and all interleavings", "anchors": ["aslam_cv_common/src/internal/unique-id.cc: generateUnique128BitHash", "aslam_cv_common/src/hash-id.cc"]}
{"id": "C24", "title": "Occupancy grid accounting", "statement": "The number of points reported by the grid equals the number of points stored, every stored point lies in the cell covering its coordinates, and no operation invents, duplicates or changes a point.", "quantifier": "for every grid geometry and every sequence of operations", "why_tests_cant": "every history of insertions and removals", "anchors": ["aslam_cv_common/include/aslam/common/occupancy-grid-inl.h", "aslam_cv_common/include/aslam/common/occupancy-grid.h"]}
{"id": "C25", "title": "Occupancy grid minimum distance", "statement": "If all points are inserted with addPointOrReplaceWeakestNearestPoints(p, d) then any two points in the grid are at least d apart.", "quantifier": "for every grid geometry, distance d (at most the cell size) and sequence of insertions", "why_tests_cant": "requires all 3x3 neighbourhoods and all replacement histories", "anchors": ["aslam_cv_common/include/aslam/common/occupancy-grid-inl.h: addPointOrReplaceWeakestNearestPoints"]}
{"id": "C26", "title": "Occupancy grid keeps the strongest points", "statement": "addPointOrReplaceWeakestIfCellFull never lets a cell exceed the limit and the surviving points of a cell are the strongest of those inserted into it; the removal functions remove only weakest points.", "quantifier": "for every sequence of insertions", "why_tests_cant": "every history", "anchors": ["aslam_cv_common/include/aslam/common/occupancy-grid-inl.h: addPointOrReplaceWeakestIfCellFull, removeWeightedPointsFromOverfullCell, removePointsFromFullestCellsUntilSize"]}
{"id": "C27", "title": "Erasing by index removes exactly the given elements", "statement": "eraseIndicesFromVector / eraseIndicesFromContainer keep exactly the elements whose index is not listed, in their original order.", "quantifier": "for every container and every (sorted or unsorted, duplicate-free) index list, including the empty one", "why_tests_cant": "all index patterns", "anchors": ["aslam_cv_common/include/aslam/common/stl-helpers-inl.h: eraseIndicesFromVector_DistinctIndices..., eraseIndicesFromContainer"]}
{"id": "C28", "title": "Median, mean and counting helpers", "statement": "median() returns the middle element (even length: mean of the two middle elements) of the multiset and only permutes its input; countNumberOfElements-style helpers count exactly.", "quantifier": "for every non-empty sequence", "why_tests_cant": "all sequences", "anchors": ["aslam_cv_common/include/aslam/common/stl-helpers-inl.h: median, mean"]}
{"id": "C29", "title": "Windowed statistics are exact", "statement": "After any number of samples the accumulator reports the exact sum, count, minimum and maximum of all samples and the exact mean of the last min(window, count) samples.", "quantifier": "for every window size and every sample sequence", "why_tests_cant": "ring-buffer wrap-around at every phase", "anchors": ["aslam_cv_common/include/aslam/common/statistics/accumulator.h"]}
{"id": "C30", "title": "Statistics registry gives each tag its own accumulator", "statement": "The same tag always gets the same handle, different tags get different handles, and a sample added under one tag changes no other tag's statistics; after Reset a tag starts afresh.", "quantifier": "for every history of registry calls", "why_tests_cant": "every history", "anchors": ["aslam_cv_common/src/statistics.cc", "aslam_cv_common/include/aslam/common/statistics/statistics.h", "aslam_cv_common/src/timer.cc"]}
{"id": "C31", "title": "Vectorised Hamming distance is exact", "statement": "The vectorised descriptor distance equals the number of differing bits.", "quantifier": "for every pair of descriptors of every supported length", "why_tests_cant": "2^1024 pairs for 512 bit descriptors, saturation limits", "anchors": ["aslam_cv_common/include/aslam/common/hamming.h", "aslam_cv_common/include/aslam/common/internal/hamming-inl.h"]}
{"id": "C32", "title": "Binary descriptor mean and median", "statement": "The rounded mean has a bit set exactly if more than half of the descriptors have it set, and no descriptor has a smaller accumulated distance to all of them; the returned median index is the first descriptor of smallest accumulated distance to all of them.", "quantifier": "for every non-empty list of descriptors", "why_tests_cant": "all lists", "anchors": ["aslam_cv_common/include/aslam/common/descriptor-utils.h"]}
{"id": "C33", "title": "Channel groups behave like a map and clones are independent", "statement": "add/get/remove/has behave like a finite map from channel names; a cloned group is equal and later changes to either do not affect the other.", "quantifier": "for every history of operations on any number of groups", "why_tests_cant": "aliasing appears only for particular histories", "anchors": ["aslam_cv_common/include/aslam/common/channel.h", "aslam_cv_common/src/channel.cc: cloneChannelGroup"]}
{"id": "C34", "title": "Comparing two channel groups cannot deadlock", "statement": "Concurrent comparisons and copies of channel groups always finish.", "quantifier": "for every interleaving of comparisons over any groups", "why_tests_cant": "lock-order inversion needs one specific interleaving", "anchors": ["aslam_cv_common/src/channel.cc: isChannelGroupEqual"]}
{"id": "C35", "title": "Extending keypoint channels keeps columns aligned", "statement": "After extending any keypoint channel the old values are unchanged at their indices, new values are appended at the end, and the gap (if other channels were longer) is filled with the documented default; all channels extended together have equal length.", "quantifier": "for every history of extensions", "why_tests_cant": "every combination of present/absent channels and lengths", "anchors": ["aslam_cv_frames/src/visual-frame.cc: extend* (632-...)", "aslam_cv_frames/include/aslam/frames/visual-frame.h"]}
{"id": "C36", "title": "Discarding untracked observations keeps exactly the tracked ones", "statement": "discardUntrackedObservations() removes exactly the keypoints whose track id is negative from every keypoint channel and keeps the relative order of the rest, so that all channels stay aligned.", "quantifier": "for every frame", "why_tests_cant": "all channel combinations", "anchors": ["aslam_cv_frames/src/visual-frame.cc: discardUntrackedObservations (572-617)"]}
{"id": "C37", "title": "Keypoint index to descriptor block lookup", "statement": "For every keypoint index the block lookup returns the block whose index range contains the index, together with the offset within the block; ranges of blocks partition the keypoints.", "quantifier": "for every list of descriptor blocks (including empty ones) and index", "why_tests_cant": "all block layouts", "anchors": ["aslam_cv_frames/src/visual-frame.cc: getDescriptorBlockForIndex (216-227), getDescriptorBlockTypeStartAndSize"]}
{"id": "C38", "title": "Minimum and maximum frame timestamps", "statement": "getMinTimestampNanoseconds/getMaxTimestampNanoseconds return the extremes of the timestamps of the frames that are set, and fail when no frame is set.", "quantifier": "for every multi-frame with any subset of frames set", "why_tests_cant": "all subsets and timestamps incl. extremes", "anchors": ["aslam_cv_frames/src/visual-nframe.cc: getMinTimestampNanoseconds, getMaxTimestampNanoseconds"]}
{"id": "C39", "title": "Camera id to index map is consistent", "statement": "For every rig, getCameraIndex(getCameraId(i)) = i, getCameraIndex of an id not in the rig is -1 and hasCameraWithId agrees; this holds after construction, cloning, replacing cameras and cloning without distortion.", "quantifier": "for every rig with distinct camera ids and every history of operations", "why_tests_cant": "every history", "anchors": ["aslam_cv_cameras/src/ncamera.cc: initInternal, setCamera, cloneWithNewIds, cloneRigWithoutDistortion, getCameraIndex"]}
{"id": "C40", "title": "Track ids are consistent along matches", "statement": "After applying matches to two frames, the two keypoints of every match carry the same non-negative track id, previously assigned ids are never changed, unmatched keypoints are untouched, and newly created ids differ from each other and from all ids issued before.", "quantifier": "for every pair of frames, every exclusive match list and every history of frames", "why_tests_cant": "every history of frames and matches", "anchors": ["aslam_cv_tracker/src/track-manager.cc: SimpleTrackManager::applyMatchesToFrames", "aslam_cv_tracker/include/aslam/tracker/track-manager.h"]}
{"id": "C41", "title": "Gyro tracker candidate selection", "statement": "The optical-flow candidates selected for re-tracking are distinct unmatched keypoints worth re-tracking (detected ones with a long enough track, or flow-tracked ones below the length limit), at most the configured fraction of the keypoints of the new frame. If the limit leaves a keypoint out, every selected one is at least as good: detected before flow-tracked, longer detected tracks before shorter ones, shorter flow tracks before longer ones.", "quantifier": "for every match list, status and track-length assignment", "why_tests_cant": "all combinations", "anchors": ["aslam_cv_tracker/src/feature-tracker-gyro.cc: computeLKCandidates, computeUnmatchedIndicesOfFrameK, computeStatusTrackLengthOfFrameK"]}
{"id": "C42", "title": "Two-frame matches are one-to-one", "statement": "The matcher never assigns a keypoint of either frame to two matches; every match passed the distance threshold and lies in the search window of its predicted position.", "quantifier": "for every pair of frames and every descriptor assignment", "why_tests_cant": "conflict resolution chains can be arbitrarily long", "anchors": ["aslam_cv_matcher/src/gyro-two-frame-matcher.cc: match, matchKeypoint, matchInferiorMatches"]}
{"id": "C43", "title": "The matching decision does not depend on candidate order", "statement": "Whether the ratio test accepts the best candidate depends on the set of candidates only, not on their order in the image.", "quantifier": "for every set of candidates and every order", "why_tests_cant": "all permutations", "anchors": ["aslam_cv_matcher/src/gyro-two-frame-matcher.cc: matchKeypoint (130-289)"]}
{"id": "C44", "title": "Row look-up window returns exactly the keypoints in the window", "statement": "The look-up of keypoints in a search window returns every keypoint whose row lies in the window.", "quantifier": "for every keypoint set and window", "why_tests_cant": "all row distributions incl. borders", "anchors": ["aslam_cv_matcher/include/aslam/matcher/gyro-two-frame-matcher.h: getKeypointIteratorsInWindow", "aslam_cv_matcher/src/gyro-two-frame-matcher.cc: initialize"]}
{"id": "C45", "title": "Pinhole projection and back-projection are inverse", "statement": "In exact arithmetic, for every lens model whose undistort inverts its distort at the point in question: projecting any positive multiple of the back-projected ray of a keypoint gives the keypoint again, back-projecting the projection of a point in front of the camera gives its ray, the reported status says exactly whether the keypoint is in the image and whether the depth exceeds the minimum depth 1e-10 or is negative, and the Jacobians are the derivatives (given those of the lens).", "quantifier": "for all intrinsics with positive focal lengths, all keypoints and points (real arithmetic)", "why_tests_cant": "continuum of inputs", "anchors": ["aslam_cv_cameras/src/camera-pinhole.cc", "aslam_cv_cameras/include/aslam/cameras/camera-pinhole-inl.h"]}
{"id": "C46", "title": "Unified projection and back-projection are inverse", "statement": "In exact arithmetic, for every mirror parameter xi >= 0, projecting any positive multiple of the back-projected ray of a liftable keypoint gives the keypoint, and the Jacobian is the derivative of the projection.", "quantifier": "for all valid intrinsics, keypoints and points (real arithmetic)", "why_tests_cant": "continuum of inputs", "anchors": ["aslam_cv_cameras/src/camera-unified-projection.cc"]}
{"id": "C47", "title": "Distortion models: inverse and Jacobians", "statement": "undistort(distort(p)) = p where the model is defined in closed form, and the reported Jacobians (with respect to the point and to the parameters) are the derivatives of the distortion function.", "quantifier": "for all parameters and points (real arithmetic)", "why_tests_cant": "continuum of inputs; special branches near the centre", "anchors": ["aslam_cv_cameras/src/distortion-fisheye.cc", "aslam_cv_cameras/src/distortion-radtan.cc", "aslam_cv_cameras/src/distortion-equidistant.cc"]}
{"id": "C48", "title": "Homogeneous projection", "statement": "project4 is invariant under multiplication of the homogeneous point with any non-zero factor (finite points), and its Jacobian is the derivative of the projection with respect to the homogeneous coordinates.", "quantifier": "for all homogeneous points (real arithmetic)", "why_tests_cant": "continuum of inputs, sign cases", "anchors": ["aslam_cv_cameras/src/camera.cc: project4Functional / project4 (340-372)"]}
{"id": "C49", "title": "Linear triangulation reproduces the point", "statement": "From exact observations of a point by at least two views the linear triangulation returns the point, and it reports failure when fewer than two measurements are given or the point is unobservable.", "quantifier": "for all numbers of views, poses and points (real arithmetic)", "why_tests_cant": "continuum of inputs; degenerate configurations", "anchors": ["aslam_cv_triangulation/src/triangulation.cc: linearTriangulateFromNViews, fastTriangulateFeatureTrack, iterativeGaussNewtonTriangulateFromNViews"]}
{"id": "C50", "title": "April-grid corner numbering matches the target geometry", "statement": "For every grid with fewer than 2^31 points and every detected tag id (the detector reports ids >= 0) the four corner indices assigned to a detection are the indices of the four corners of that tag in the target's point list; different tags get disjoint indices and all are valid. The detector returns exactly the accepted corners of the valid tags, each with the position of its own detection, or nothing if too few tags are valid or an id occurs twice.", "quantifier": "for all grid sizes and tag ids", "why_tests_cant": "all grid sizes", "anchors": ["aslam_cv_calibration/src/target-aprilgrid.cc: createAprilGridPoints, detectTargetInImage", "aslam_cv_calibration/src/target-base.cc"]}
{"id": "C51", "title": "Circle fitting and intersection are exact", "statement": "For points on a circle (not collinear) fitCircle returns that circle; the points returned by intersectCircles lie on both circles.", "quantifier": "for all point sets and circles (real arithmetic)", "why_tests_cant": "continuum of inputs", "anchors": ["aslam_cv_calibration/include/aslam/calibration/helpers.h"]}
{"id": "C52", "title": "Diffusion step reordering is a permutation", "statement": "The reordered list of time steps for fast explicit diffusion is a permutation of the computed steps, and the primality test used for the permutation is exact.", "quantifier": "for all numbers of steps", "why_tests_cant": "number theoretic fact over all n", "anchors": ["aslam_cv_detector/src/kaze/fed.cpp"]}
{"id": "C53", "title": "3-D RANSAC returns the best model", "statement": "ransacTransformationFor3DPoints returns the transformation with the largest inlier set among the sampled ones together with its inliers and outliers.", "quantifier": "for all inputs and all random draws", "why_tests_cant": "all random draws", "anchors": ["aslam_cv_geometric_vision/src/pnp-pose-estimator.cc: ransacTransformationFor3DPoints, absoluteMultiPoseRansac3DFeatures"]}
{"id": "C54", "title": "Feature track bounding box", "statement": "The disparity measure of a feature track is the squared diagonal of the axis-parallel bounding box of its keypoints.", "quantifier": "for all non-empty tracks and coordinates", "why_tests_cant": "all coordinate signs", "anchors": ["aslam_cv_frames/include/aslam/frames/feature-track.h: getDiagonalSqOfDisparityBoundingBox"]}
{"id": "C55", "title": "Time to text conversion", "statement": "The textual form of a time denotes the time: seconds and nanoseconds read back give the value.", "quantifier": "for all 64-bit times", "why_tests_cant": "2^64 values, sign and digit-count boundaries", "anchors": ["aslam_cv_common/include/aslam/common/time.h: timeNanosecondsToString"]}
{"id": "C56", "title": "Lidar projection and back-projection are inverse", "statement": "In exact arithmetic, projecting the back-projected ray of a pixel of a 360 degree lidar image gives the pixel; the maximal rolling-shutter delay covers the delay of every keypoint in the image.", "quantifier": "for all resolutions, centres and pixels (real arithmetic)", "why_tests_cant": "continuum of inputs, wrap-around", "anchors": ["aslam_cv_cameras/src/camera-3d-lidar.cc", "aslam_cv_cameras/include/aslam/cameras/camera-3d-lidar.h", "aslam_cv_cameras/include/aslam/cameras/camera-3d-lidar-inl.h", "aslam_cv_cameras/include/aslam/cameras/camera.h: maxRollingShutterDelayNanoSeconds"]}
{"id": "C57", "title": "Outlier rejection partitions the matches", "statement": "Outlier rejection splits the matches into inliers and outliers: every match goes to exactly one of the two output lists, order preserved, and on failure all matches are outliers.", "quantifier": "for all match lists and all inlier sets found by RANSAC", "why_tests_cant": "all inputs", "anchors": ["aslam_cv_geometric_vision/src/match-outlier-rejection-twopt.cc"]}
{"id": "C58", "title": "Blocking pipeline calls sleep only for a reason", "statement": "A thread sleeps in getNextBlocking() or getLatestAndClearBlocking() only while no completed frame is available, and in processImageBlockingIfFull() only while the output queue is full; a blocking call returns false only after shutdown().", "quantifier": "for every number of threads, sequence of calls, interleaving and wake-up pattern", "why_tests_cant": "a lost wake-up needs a particular interleaving", "anchors": ["aslam_cv_pipeline/src/visual-npipeline.cc: processImageBlockingIfFull, getNextBlocking, getLatestAndClearBlocking, getNextImpl, work"]}
{"id": "C59", "title": "Scalar channels survive serialization", "statement": "A scalar channel value that is serialized (to a string or to a buffer) and deserialized with the same type is unchanged.", "quantifier": "for every scalar type and every value of it", "why_tests_cant": "all 2^64 values of each type; the failing ones are rare", "anchors": ["aslam_cv_common/include/aslam/common/channel-serialization.h: serializeToString, deSerializeFromString, serializeToBuffer, deSerializeFromBuffer for Scalar"]}
{"id": "C60", "title": "fromHexString accepts only hexadecimal text", "statement": "fromHexString fails (returns false or throws) for every string that contains a character which is not a hexadecimal digit.", "quantifier": "for every string", "why_tests_cant": "all strings; the accepted bad ones (\"0x\", \"-1\", \"1g\" in a pair) are rare", "anchors": ["aslam_cv_common/include/aslam/common/hash-id.h: fromHexString"]}
{"id": "C61", "title": "Ids are usable as keys", "statement": "== is equality of ids, < is a strict total order compatible with it, > is its converse, equal ids have equal hashes, isValid is false only for the invalid id, and the protobuf form restores the id.", "quantifier": "for all ids", "why_tests_cant": "2^384 triples", "anchors": ["aslam_cv_common/include/aslam/common/hash-id.h: operator<, operator==, hashToSizeT, isValid", "aslam_cv_common/include/aslam/common/unique-id.h: Id::serialize, Id::deserialize"]}
{"id": "C62", "title": "keepOnlyNSortedElements keeps the best n", "statement": "keepOnlyNSortedElements(c, n, cmp) leaves min(n, size) elements, hands exactly the other ones to the removal action, and no removed element precedes a kept one in the given order.", "quantifier": "for every container, n and strict weak order", "why_tests_cant": "all containers and orders", "anchors": ["aslam_cv_common/include/aslam/common/stl-helpers.h: keepOnlyNSortedElements"]}
{"id": "C63", "title": "drawNRandomElements draws without replacement", "statement": "drawNRandomElements(n, input, output) returns min(n, size) elements taken from pairwise different positions of the input.", "quantifier": "for every input, n > 0 and every sequence of random numbers", "why_tests_cant": "all random streams", "anchors": ["aslam_cv_common/include/aslam/common/stl-helpers.h: drawNRandomElements"]}
{"id": "C64", "title": "Occupancy grid meets the requested total", "statement": "removePointsFromFullestCellsUntilSize(n) leaves exactly min(n, current) points, taking them from the fullest cells.", "quantifier": "for every n > 0 and every reachable grid", "why_tests_cant": "every distribution of points over cells; the failing ones need more occupied cells than n", "anchors": ["aslam_cv_common/include/aslam/common/occupancy-grid-inl.h: removePointsFromFullestCellsUntilSize, removeWeightedPointsFromOverfullCell"]}
{"id": "C65", "title": "A timer contributes exactly its completed laps", "statement": "Every Start followed by Stop (or by the destruction of a running timer) adds exactly one sample, equal to the elapsed time, to the timer's own tag; Discard, a second Start and a Stop of a stopped timer add nothing.", "quantifier": "for every history of timer and registry calls", "why_tests_cant": "every interleaving of timers, tags and resets", "anchors": ["aslam_cv_common/src/timer.cc"]}
{"id": "C66", "title": "Clearing the keypoint channels leaves no keypoints and no descriptors", "statement": "After clearKeypointChannels() the frame has no keypoints, no descriptors and empty uncertainty, orientation, score, scale and track id channels.", "quantifier": "for every frame with any number of descriptor blocks", "why_tests_cant": "tests clear frames with a single descriptor block", "anchors": ["aslam_cv_frames/src/visual-frame.cc: clearKeypointChannels (441-454), setDescriptors (306-328)"]}
{"id": "C67", "title": "Selecting keypoints for bearing vectors stays in range", "statement": "getNormalizedBearingVectors() returns the bearing vectors of exactly the requested keypoints, and refuses indices that are not keypoints instead of reading other memory.", "quantifier": "for every index list", "why_tests_cant": "tests use valid indices", "anchors": ["aslam_cv_frames/src/visual-frame.cc: getNormalizedBearingVectors (527-553)"]}
{"id": "C68", "title": "Optical-flow matches and keypoints of the gyro tracker", "statement": "Keypoints added to the new frame by optical flow are matched, in order of their position, with the keypoint of the previous frame they were tracked from; that keypoint was predicted, successfully tracked and not matched otherwise, so no keypoint of the previous frame is matched twice; and every added keypoint keeps the configured distance to the image border.", "quantifier": "for every result of matcher, prediction, optical flow and extraction, and all settings", "why_tests_cant": "all combinations of failures, and settings at the extremes", "anchors": ["aslam_cv_tracker/src/feature-tracker-gyro.cc: lkTracking (154-294)", "aslam_cv_tracker/include/aslam/tracker/feature-tracker-gyro.h: eraseVectorElementsByIndex"]}
{"id": "C69", "title": "Gyro tracker bookkeeping over a sequence of frames", "statement": "When the first frame of every call is the second frame of the call before (with all keypoints), track never aborts and never accesses its status, length or track-id memory out of range; the stored status tells for each keypoint whether it was detected or flow-tracked.", "quantifier": "for every sequence of frames of any sizes", "why_tests_cant": "the bookkeeping spans three frames and any number of calls", "anchors": ["aslam_cv_tracker/src/feature-tracker-gyro.cc: track, computeTrackedMatches, computeStatusTrackLengthOfFrameK, updateFeatureStatusDeque, updateTrackIdDeque"]}
{"id": "C70", "title": "Matching two valid frames never aborts", "statement": "For valid frames with descriptors of a supported size, predictions for all keypoints and rows inside the image, the matcher returns normally: none of its internal checks fires and no index is out of range, in particular the iterators into the match list stay valid.", "quantifier": "for all keypoints, descriptors, predictions and search windows", "why_tests_cant": "Which internal check fires depends on the interplay of all descriptors in a window; tests use random descriptors, for which the critical distances have vanishing probability.", "anchors": ["aslam_cv_matcher/src/gyro-two-frame-matcher.cc: match, matchKeypoint, matchInferiorMatches", "aslam_cv_matcher/include/aslam/matcher/gyro-two-frame-matcher.h: addCandidate, ratioTest"]}
{"id": "C71", "title": "A contested keypoint goes to the most similar claimant", "statement": "If the search for a keypoint of frame k selects a keypoint of frame k+1, then it is the closest candidate in the searched window, and in the result this keypoint of frame k+1 is matched, to a keypoint of frame k whose descriptor is at least as similar.", "quantifier": "for all frames and all orders of processing", "why_tests_cant": "The outcome depends on the sequence in which matches displace each other over several passes; tests only see a few conflicts.", "anchors": ["aslam_cv_matcher/src/gyro-two-frame-matcher.cc: matchKeypoint (245-280), matchInferiorMatches (291-376)"]}
{"id": "C72", "title": "Accepted matches are distinctive", "statement": "If the first search accepts a best candidate with non-zero distance, then every other candidate in the searched window that is itself similar enough to be a match is clearly worse: five times the accepted distance is below four times its distance.", "quantifier": "for all candidate sets and all orders", "why_tests_cant": "The second-best distance is tracked incrementally; whether it is exact depends on the order of all candidates.", "anchors": ["aslam_cv_matcher/src/gyro-two-frame-matcher.cc: matchKeypoint (165-242)", "aslam_cv_matcher/include/aslam/matcher/gyro-two-frame-matcher.h: ratioTest (235-252)"]}
{"id": "C73", "title": "Projection uses the intrinsics it is given", "statement": "project3Functional called with external intrinsics returns the projection of a camera with these intrinsics, for every camera type.", "quantifier": "for all intrinsics and points (real arithmetic)", "why_tests_cant": "continuum of inputs; tests pass the camera's own intrinsics", "anchors": ["aslam_cv_cameras/src/camera-3d-lidar.cc: project3Functional", "aslam_cv_cameras/include/aslam/cameras/camera-3d-lidar-inl.h"]}
{"id": "C74", "title": "Corners of an observation can be looked up by id", "statement": "For a target observation, observedCornerId tells for every id of the target whether the corner was observed, and getObservedCornerById returns its image position if and only if it was observed; allCornersObservered holds exactly if every point of the target was observed.", "quantifier": "for all observations and corner ids", "why_tests_cant": "all subsets of corners", "anchors": ["aslam_cv_calibration/include/aslam/calibration/target-observation.h: observedCornerId, getObservedCornerById, allCornersObservered"]}
{"id": "C75", "title": "Grid coordinates and point indices correspond", "statement": "pointToGridCoordinates and gridCoordinatesToPoint are inverse to each other; width and height are the extents of the printed grid.", "quantifier": "for all grid sizes and points", "why_tests_cant": "all grid sizes; a test on a square grid does not notice swapped coordinates on the diagonal", "anchors": ["aslam_cv_calibration/src/target-base.cc: pointToGridCoordinates, gridCoordinatesToPoint, width, height"]}
{"id": "C76", "title": "Linear triangulation returns the least-squares point", "statement": "When linearTriangulateFromNViews, its multi-camera form or triangulateFromNViews on bearing vectors reports success for a non-degenerate set of rays, the returned point minimises the sum of squared distances to the lines of sight. Hence all variants give the same point for the same views.", "quantifier": "for all numbers of views, poses, measurements and bearing vectors (exact arithmetic)", "why_tests_cant": "Tests use noise-free or mildly noisy synthetic points and compare with a tolerance; they do not show optimality against every other point, nor agreement of the variants.", "anchors": ["aslam_cv_triangulation/src/triangulation.cc:13-156"]}
{"id": "C77", "title": "Gauss-Newton triangulation uses the true Jacobian", "statement": "The Jacobian rows built in iterativeGaussNewtonTriangulateFromNViews are the partial derivatives of the reprojection residual with respect to alpha, beta and rho, at every state with non-zero predicted depth.", "quantifier": "for all camera constants, measurements and states (alpha, beta, rho) with non-zero depth", "why_tests_cant": "A wrong Jacobian entry often still converges on the tested cases, only slower.", "anchors": ["aslam_cv_triangulation/src/triangulation.cc:200-256"]}
{"id": "C78", "title": "Pixel sigma becomes the matching angular threshold", "statement": "The RANSAC threshold computed from pixel_sigma accepts, for a camera with equal focal lengths, exactly the rays of pixels within pixel_sigma of the principal point when compared with the optical axis; for a rig it lies between the thresholds of the smallest and the largest focal length, and a one-camera rig gets the threshold of its camera.", "quantifier": "for all focal lengths, pixel sigmas, pixels and rigs", "why_tests_cant": "Tests only check that the estimated pose is close to the truth; a wrong threshold formula mostly changes the number of iterations.", "anchors": ["aslam_cv_geometric_vision/src/pnp-pose-estimator.cc:17-131"]}
{"id": "C79", "title": "RANSAC seeding follows the random_seed flag", "statement": "With random_seed false the samples drawn by the 3-D RANSAC are determined by the seed set from outside with srand, with random_seed true they come from a time-based seed; every iteration draws a fresh sample.", "quantifier": "for all generators, clocks, inputs and iteration counts", "why_tests_cant": "A test sees one run; whether the outside seed or the clock decided the samples, and that iterations within a second repeat the same sample, is not visible in a result.", "anchors": ["aslam_cv_geometric_vision/src/pnp-pose-estimator.cc:356-366", "aslam_cv_geometric_vision/include/aslam/geometric-vision/pnp-pose-estimator.h:22-26,97-99"]}
{"id": "C80", "title": "Descriptor references own, copy and free their memory correctly", "statement": "FeatureDescriptorRef objects may be constructed (empty, as views, on the heap), copied, assigned, allocated, released, pointed elsewhere with set_data, written and destroyed in any order; no history reads or frees memory that is not live, every heap buffer is freed exactly once, a copy or assigned object has the contents of its source and compares equal to it, and changing an owning descriptor never changes another one.", "quantifier": "all finite histories of operations on any number of objects of any sizes, all contents", "why_tests_cant": "The number of histories is unbounded, and double frees, leaks and reads of uninitialised members usually go unnoticed in a test.", "anchors": ["aslam_cv_common/include/aslam/common/feature-descriptor-ref-inl.h:63-189", "aslam_cv_common/include/aslam/common/feature-descriptor-ref.h:57-98"]}
{"id": "C81", "title": "FlipNRandomBits changes exactly the requested number of bits", "statement": "FlipNRandomBits(n, descriptor) leaves a descriptor of the same size at Hamming distance exactly n from the original, for every outcome of the shuffle and every n up to the number of bits; larger n are rejected.", "quantifier": "all descriptors, all n, all permutations produced by the shuffle", "why_tests_cant": "The function draws random permutations, a test sees a handful of the factorially many.", "anchors": ["aslam_cv_common/include/aslam/common/feature-descriptor-ref.h:128-142"]}
{"id": "C82", "title": "Keypoints predicted by a rotation are where the rotated camera sees them", "statement": "predictKeypointsByRotation returns one keypoint and one flag per keypoint of the frame: if the flag is set the keypoint is the visible projection of the rotated viewing ray, otherwise it is the unrotated keypoint. The identity changes nothing and succeeds, predictions by successive rotations agree with the prediction by the product, and predicting with the inverse rotation leads back.", "quantifier": "all cameras, all unit quaternions, all lists of keypoints and all previous contents of the outputs; the geometric laws for pinhole (and partly unified) cameras with exactly invertible distortion", "why_tests_cant": "Tests use a few fixed rotations and cameras; the loops reuse output buffers and have an early exit that does not return.", "anchors": ["aslam_cv_matcher/src/match-helpers.cc:40-95", "aslam_cv_cameras/src/camera.cc:398-427"]}
{"id": "C83", "title": "Bearing vectors of matches correspond to the matches", "statement": "getBearingVectorsFromMatches returns two lists with one unit vector per match, in the order of the matches, each pointing along the viewing ray of the keypoint of its frame (so that it projects to that keypoint); matches whose keypoint has no viewing ray are not passed on silently.", "quantifier": "all cameras, keypoints and lists of matches with valid indices", "why_tests_cant": "Index bookkeeping over two frames and all cameras; failed back-projections hardly occur in tests.", "anchors": ["aslam_cv_matcher/src/match-helpers.cc:11-37", "aslam_cv_frames/src/visual-frame.cc:527-553"]}
{"id": "C84", "title": "Inserting keypoints keeps every channel of a frame aligned", "statement": "insertCvKeypointsAndDescriptorsIntoEmptyVisualFrame leaves exactly one entry per keypoint in every channel, in the order of the input and with the values of that keypoint, constant uncertainty, track id -1 and its descriptor; it refuses a frame that has keypoints. insertAdditionalCvKeypointsAndDescriptorsToVisualFrame leaves the existing entries alone and appends the new ones to every channel; inserting in two portions equals inserting everything at once.", "quantifier": "for all keypoint vectors, descriptor matrices, uncertainties and frames", "why_tests_cant": "Channel misalignment depends on the sizes of seven separately stored matrices and shows up as uninitialised memory, which a test may read as plausible values.", "anchors": ["aslam_cv_tracker/src/tracking-helpers.cc:12-66", "aslam_cv_tracker/src/tracking-helpers.cc:68-141", "aslam_cv_frames/src/visual-frame.cc:441-454"]}
{"id": "C85", "title": "Matrices survive a round trip through YAML", "statement": "Any matrix with at least one coefficient (fixed or dynamic sizes) can be encoded; decoding the node into any matrix type of compatible size succeeds and gives the same sizes and, up to the precision of the decimal texts, the same coefficients at the same places.", "quantifier": "for all sizes, coefficients, target types and number formats", "why_tests_cant": "Sizes, the special treatment of single columns and the choice between linear and nested layout interact; tests fix a handful of shapes.", "anchors": ["aslam_cv_common/include/aslam/common/yaml-serialization-eigen.h:14-40", "aslam_cv_common/include/aslam/common/yaml-serialization-eigen.h:42-106"]}
{"id": "C86", "title": "A YAML document is read as the matrix it means, or refused", "statement": "Decoding accepts exactly the documents whose sizes fit the type and whose data lists the coefficients row by row or as one sequence per row, and returns the matrix they mean; every other document makes decode return false.", "quantifier": "for all documents, sizes and target types", "why_tests_cant": "Malformed documents are unbounded in number; a silently dropped coefficient looks like a valid calibration.", "anchors": ["aslam_cv_common/include/aslam/common/yaml-serialization-eigen.h:42-106", "aslam_cv_common/include/aslam/common/yaml-serialization-eigen.h:108-196"]}
{"id": "C87", "title": "The optimal new camera matrix shows what alpha promises", "statement": "getOptimalNewCameraMatrix returns positive focal lengths; for every alpha in [0, 1] the inscribed rectangle of the undistorted image is in view and nothing outside of the circumscribed rectangle is; alpha = 0 shows exactly the inscribed rectangle, so that all output pixels are valid, alpha = 1 retains all source pixels; an undistorted camera kept at its size keeps its matrix; the matrix belongs to the size of the output camera.", "quantifier": "for all cameras, lens models, image sizes, alpha and scale", "why_tests_cant": "The claim is about all points between the sampled ones and about every alpha; a wrong border of one pixel or an inverted rectangle is not visible in an image.", "anchors": ["aslam_cv_common/include/aslam/common/undistort-helpers.h:28-107", "aslam_cv_common/include/aslam/common/undistort-helpers.h:119-155", "aslam_cv_pipeline/include/aslam/pipeline/undistorter-mapped-inl.h:37-93"]}
{"id": "C88", "title": "Every entry of an undistortion map points to where the ray of the output pixel is seen", "statement": "buildUndistortMap stores for each output pixel the position at which the input camera sees the ray of that pixel, to 1/64 pixel in the fixed-point format; rays that the input camera does not see get positions outside of the image; the map from a camera to itself is the identity.", "quantifier": "for all pairs of cameras, all pixels and positions", "why_tests_cant": "The fixed-point packing has to be right for every real position; maps are large and only looked at through interpolated images.", "anchors": ["aslam_cv_common/include/aslam/common/undistort-helpers.h:165-216", "aslam_cv_pipeline/src/undistorter-mapped.cc:11-46"]}
{"id": "C89", "title": "Rotating a covariance only changes the frame", "statement": "rotateCovariance(T_B_A, cov_A) returns the covariance of the same quantity in frame B: the covariance of any two directions (translational and rotational parts) expressed in B equals their covariance expressed in A; symmetric and positive semidefinite matrices stay so, the total variances of translation and of rotation are preserved, rotating twice is rotating by the product, and rotating with the inverse transformation gives the original covariance back.", "quantifier": "every 6x6 covariance, every unit rotation, every pair of directions", "why_tests_cant": "the test rotates a few random covariances there and back and compares; a transposed rotation applied in both directions, or a wrong cross block that is undone on the way back, passes", "anchors": ["aslam_cv_common/src/covariance-helpers.cc: rotateCovariance", "aslam_cv_common/include/aslam/common/covariance-helpers.h"]}
{"id": "C90", "title": "Documents of cameras", "statement": "Camera::serialize of a valid camera writes a YAML document from which Sensor::deserialize on any object of the same class, and createCamera(YAML::Node), restore the id, topic, description, type, image size, intrinsics, distortion, line delay and compression exactly, whatever the object held before; a mask that a camera has afterwards fits its image.", "quantifier": "all valid cameras of the three classes with every distortion, all former contents of the object that is read into", "why_tests_cant": "A round trip test covers a few cameras read into new objects; stale members of reused objects and combinations of class and distortion are not covered.", "anchors": ["aslam_cv_common/src/sensor.cc:38", "aslam_cv_cameras/src/camera.cc:106", "aslam_cv_cameras/src/camera.cc:250", "aslam_cv_cameras/src/camera-factory.cc:66"]}
{"id": "C91", "title": "Documents of camera rigs", "statement": "NCamera::serialize writes a YAML document from which NCamera::deserialize restores the id, cameras, transformations T_C_B and the fixed localization covariance, in order, with an index that finds every camera by its id; this holds for every rig and every rig object that is read into.", "quantifier": "all rigs whose cameras are valid and whose transformations survive inversion and conversion to a matrix, with and without covariance; all objects that are read into", "why_tests_cant": "The number of cameras is unbounded and the former contents of the object matter; tests read one or two cameras into new rigs.", "anchors": ["aslam_cv_cameras/src/ncamera.cc:94", "aslam_cv_cameras/src/ncamera.cc:177", "aslam_cv_cameras/src/ncamera.cc:202"]}
{"id": "C92", "title": "Reading arbitrary sensor documents", "statement": "If deserialize returns true for an arbitrary document, the camera or rig is valid, has the class that the document names and is exactly what the document says, with the documented defaults; for every other document deserialize returns false and leaves the object as it was, without ending the program or an exception.", "quantifier": "all YAML trees, all cameras and rigs that are read into", "why_tests_cant": "The documents are user input: there are unboundedly many malformed ones.", "anchors": ["aslam_cv_common/src/sensor.cc:38", "aslam_cv_cameras/src/camera.cc:106", "aslam_cv_cameras/src/ncamera.cc:94", "aslam_cv_common/include/aslam/common/yaml-serialization.h:27"]}
{"id": "C93", "title": "Explicit nonlinear diffusion conserves brightness and creates no new extrema", "statement": "One explicit diffusion step (nld_step_scalar) adds to every pixel the step size times the flow from its neighbours inside the image, in whatever order the parallel rows are computed; the sum of all pixels is unchanged; for step sizes up to 1/4 and conductivities in [0, 1] every new pixel lies between the least and the greatest of itself and its neighbours; and the four conductivity functions give values in [0, 1] for every contrast factor other than zero. 1/4 is the largest such step size.", "quantifier": "For all image sizes of at least two rows and columns, images, conductivities, step sizes and row orders", "why_tests_cant": "Whether sums and ranges are kept depends on all border cases and all images; a test looks at a few images and a mistake at one corner pixel is not visible in keypoints.", "anchors": ["aslam_cv_detector/src/kaze/nldiffusion_functions.cpp: nld_step_scalar", "aslam_cv_detector/src/kaze/nldiffusion_functions.cpp: pm_g1", "aslam_cv_detector/src/kaze/nldiffusion_functions.cpp: pm_g2", "aslam_cv_detector/src/kaze/nldiffusion_functions.cpp: weickert_diffusivity", "aslam_cv_detector/src/kaze/nldiffusion_functions.cpp: charbonnier_diffusivity"]}
{"id": "C94", "title": "The contrast factor is the requested percentile of the gradients and never zero", "statement": "compute_k_percentile returns a positive value r not above the greatest gradient magnitude, such that at least the requested fraction (rounded down) of the nonzero magnitudes of the pixels inside the border is at most r, and fewer than that fraction are below r less one bin of the histogram.", "quantifier": "For all images, fractions in [0, 1] and positive numbers of bins", "why_tests_cant": "The histogram loops, the last bin, rounding and the range of the counters matter for images a test does not contain: flat images, few edges, very large images.", "anchors": ["aslam_cv_detector/src/kaze/nldiffusion_functions.cpp: compute_k_percentile"]}
{"id": "C95", "title": "The steps of fast explicit diffusion last exactly the requested time and are stable", "statement": "The step sizes of a cycle are positive, sum up to the cycle time (M cycles to the process time), their number is the smallest n with n(n+1)/3 tau_max not less than the time (up to 1e-8), and a cycle amplifies no component of an image although single steps exceed the stability limit; the levels of the KAZE scale space get exactly the cycles between their evolution times, for every soffset, omax and nsublevels.", "quantifier": "For all times, tau_max, numbers of cycles, orders of the steps, conductivities in [0, 1], image sizes, and options", "why_tests_cant": "Sum and stability are trigonometric identities in the number of steps; a test compares a few of them in floating point and cannot cover all numbers of steps or options.", "anchors": ["aslam_cv_detector/src/kaze/fed.cpp: fed_tau_by_process_time", "aslam_cv_detector/src/kaze/fed.cpp: fed_tau_by_cycle_time", "aslam_cv_detector/src/kaze/fed.cpp: fed_tau_internal", "aslam_cv_detector/src/kaze/KAZE.cpp: KAZE::Allocate_Memory_Evolution", "aslam_cv_detector/src/kaze/KAZE.cpp: KAZE::Create_Nonlinear_Scale_Space"]}
{"id": "C96", "title": "The implicit diffusion step solves its equations for every image size and step size", "statement": "AOS_Step_Scalar divides by no zero, gives the mean of the unique solutions of the implicit diffusion equations along rows and along columns, keeps the sum of all pixels, and keeps every pixel in the range of the input, for every step size and every image of at least two rows and columns.", "quantifier": "For all images, nonnegative conductivities, step sizes and image sizes", "why_tests_cant": "Exactness of elimination and the maximum principle hold for all systems or not at all; an orientation mistake is invisible for square test images.", "anchors": ["aslam_cv_detector/src/kaze/KAZE.cpp: KAZE::AOS_Step_Scalar", "aslam_cv_detector/src/kaze/KAZE.cpp: KAZE::AOS_Rows", "aslam_cv_detector/src/kaze/KAZE.cpp: KAZE::AOS_Columns", "aslam_cv_detector/src/kaze/KAZE.cpp: KAZE::Thomas", "aslam_cv_detector/src/kaze/KAZE.cpp: KAZE::Allocate_Memory_Evolution"]}
{"id": "C97", "title": "KAZE keypoints are exactly the local maxima in space and scale, apart from suppressed neighbours", "statement": "Every keypoint that Determinant_Hessian_Parallel reports is an interior pixel above both thresholds which no neighbour in its own and the two adjacent levels exceeds; every such pixel is reported unless a different one with at least its response is nearer than the scale; no two reported keypoints of adjacent levels are nearer than the scale; the surroundings of keypoints needed by the descriptor lie in the image; the result depends on the current image only. Do_Subpixel_Refinement moves a keypoint by at most one pixel, keeps it in the image, is exact for quadratic functions and removes exactly the keypoints whose solution is farther away.", "quantifier": "For all images, thresholds, numbers of levels, scales and previous contents of the vector", "why_tests_cant": "Suppression depends on the order of several keypoints of several levels; exactness for all quadratic functions and images cannot be sampled.", "anchors": ["aslam_cv_detector/src/kaze/KAZE.cpp: KAZE::Determinant_Hessian_Parallel", "aslam_cv_detector/src/kaze/KAZE.cpp: KAZE::Find_Extremum_Threading", "aslam_cv_detector/src/kaze/KAZE.cpp: KAZE::Do_Subpixel_Refinement", "aslam_cv_detector/src/kaze/nldiffusion_functions.cpp: check_maximum_neighbourhood"]}
{"id": "C98", "title": "The main orientation is the direction of the longest sum of gradients", "statement": "Compute_Main_Orientation fills its 109 samples, reads only pixels of the image, slides the window through all multiples of 0.15 below a full turn, and returns the direction of a sum of weighted gradients over a window of 60 degrees that no other window exceeds in length; the contrast of the image does not change it.", "quantifier": "For all derivative images, keypoints and scales", "why_tests_cant": "The windows wrap around the full turn; a gradient exactly on the boundary between the branches is not sampled by tests.", "anchors": ["aslam_cv_detector/src/kaze/KAZE.cpp: KAZE::Compute_Main_Orientation", "aslam_cv_detector/src/kaze/KAZE.cpp: libKAZE::gaussian"]}
{"id": "C99", "title": "KAZE descriptors are unit vectors of bilinearly interpolated samples", "statement": "Each of the twelve descriptor functions writes exactly 64 or 128 elements that form a unit vector, for every keypoint; it samples every position of its square pattern (each once for SURF and G-SURF), reads only pixels of the image, takes border pixels beyond the border, interpolates bilinearly between the neighbouring pixels (exactly for affine images, within the range of the pixels), weights the samples of an M-SURF cell by their distance from its centre, and does not depend on the contrast; the values of G-SURF do not depend on the orientation of the axes; SURF and G-SURF descriptors of an image turned about the keypoint together with the angle of the keypoint are the same.", "quantifier": "For all derivative images, keypoints, angles, sizes and descriptor types", "why_tests_cant": "Interpolation and normalisation are statements about all real positions and images; flat patches, sub-pixel positions below one half and symmetric patterns are not distinguished by sample images.", "anchors": ["aslam_cv_detector/src/kaze/KAZE.cpp: KAZE::Get_SURF_Descriptor_64", "aslam_cv_detector/src/kaze/KAZE.cpp: KAZE::Get_MSURF_Descriptor_64", "aslam_cv_detector/src/kaze/KAZE.cpp: KAZE::Get_GSURF_Descriptor_64", "aslam_cv_detector/src/kaze/KAZE.cpp: KAZE::Get_SURF_Upright_Descriptor_128", "aslam_cv_detector/src/kaze/KAZE.cpp: libKAZE::checkDescriptorLimits"]}
{"id": "C100", "title": "Gradient and seed order of the line segment detector", "statement": "For every image, the line segment detector gives each pixel that has a right and a lower neighbour the gradient of the 2x2 block it starts, and as angle the direction of the level line (the gradient turned by 90 degrees) when the gradient is above the threshold and no angle otherwise; on plane images this is the exact gradient; only pixels of the image are read; every gradient falls into one of the N_BINS bins. Regions are grown from each such pixel once, from those in the highest bins of the gradient first.", "quantifier": "for all image sizes, pixel values, thresholds and numbers of bins", "why_tests_cant": "The order of the seeds cannot be seen in the segments of test images, and an index outside the bins only shows for particular gradients.", "anchors": ["aslam_cv_detector/src/lsd/lsd-opencv.cc:646-743", "aslam_cv_detector/src/lsd/lsd-opencv.cc:556-589"]}
{"id": "C101", "title": "Regions grown by the line segment detector", "statement": "From any unused pixel with an angle, region growing ends within the capacity of its buffer (width * height points) and gives distinct, previously unused pixels of the image with angles, joined to the seed by steps to one of eight neighbours; exactly they become used. Each pixel added is within the angle tolerance (up to full turns) of the mean direction of the pixels before it, and unused neighbours that are left out were not when they were compared; when the angles of all unused pixels span at most the tolerance, the region is everything joined to the seed.", "quantifier": "for all image sizes, angles, maps of used pixels, seeds and tolerances the constructor accepts", "why_tests_cant": "Growth depends on the order of visits and on wrap-around of angles; tests can only see single images.", "anchors": ["aslam_cv_detector/src/lsd/lsd-opencv.cc:745-796", "aslam_cv_detector/src/lsd/lsd-opencv.cc:1246-1262"]}
{"id": "C102", "title": "The rectangle of a line support region", "statement": "For a region of at least two pixels with positive gradient magnitudes, the rectangle computed for it has its centre at the centre of mass, its axis is the line through the centre with the least weighted sum of squared distances, its ends are the outermost projections of pixels on the axis, its width is the extent across the axis but at least one pixel, and its direction is that of the region. Every pixel of the region lies in the rectangle and the segment reported lies in the image. A region of one pixel makes the call throw.", "quantifier": "for all regions, gradient magnitudes, angles and tolerances", "why_tests_cant": "A test compares a few regions with rectangles of the same code; optimality of the axis over all directions, and pixels or end points outside, cannot be seen from samples.", "anchors": ["aslam_cv_detector/src/lsd/lsd-opencv.cc:798-854", "aslam_cv_detector/src/lsd/lsd-opencv.cc:856-892", "aslam_cv_detector/src/lsd/lsd-opencv.cc:612-631"]}
{"id": "C103", "title": "Segments have disjoint supports and detection ends", "statement": "For every image and every valid parameter, the detection of line segments ends and does not throw. No pixel supports two of the segments found; every segment is the best fit through the pixels of its support, which are in the image and have a gradient above the threshold; with the standard refinement every support has at least two pixels and fills its rectangle to the density asked for. The tolerance of the refinement is twice the standard deviation of the directions near the seed. An image without a gradient above the threshold has no segments.", "quantifier": "for all images, sizes and parameters the constructor accepts", "why_tests_cant": "Tests run a few images; disjointness, termination of the shrinking of regions and freedom from exceptions are claims about all images.", "anchors": ["aslam_cv_detector/src/lsd/lsd-opencv.cc:547-644", "aslam_cv_detector/src/lsd/lsd-opencv.cc:894-979"]}
{"id": "C104", "title": "An ideal edge gives exactly one segment", "statement": "In an image whose columns up to c have one value and the others another, with a step above the gradient threshold and more rows than the smallest region size, the detector at scale one reports exactly one segment: it runs along column c from the first row to the last but one, downwards if the left side is darker and upwards otherwise, with or without the standard refinement.", "quantifier": "for all image sizes, edge positions, brightness values and valid parameters with an angle threshold below 90 degrees", "why_tests_cant": "A test shows it for one image; here it holds for every size, contrast and parameter at once.", "anchors": ["aslam_cv_detector/src/lsd/lsd-opencv.cc:547-644", "aslam_cv_detector/src/lsd/lsd-opencv.cc:646-743", "aslam_cv_detector/src/lsd/lsd-opencv.cc:745-892"]}
{"id": "C105", "title": "Filters of line segments and intersection of lines", "statement": "filterSize keeps, in order, exactly the segments of a length of at least min_length and below max_length (a limit of -1 is none) and returns the number of the others; retainAngle and filterOutAngle share out the segments by whether the angle of the line, in [0, 180) degrees, is in the given range, whichever way round its end points are; the lines of aslam::LineSegmentDetector::detect are exactly the segments of the minimal length. intersection returns true exactly for two lines with a single common point and stores this point. All of it holds for whatever type of array the lines come in.", "quantifier": "for all lists of segments, limits, ranges of angles, pairs of lines", "why_tests_cant": "Tests of filters use a handful of segments; limits hit exactly, reversed end points, degenerate segments, each container type and intersections between pixels are rarely among them.", "anchors": ["aslam_cv_detector/src/lsd/lsd-opencv.cc:1376-1467", "aslam_cv_detector/src/line-segment-detector.cc:19-35"]}
{"id": "C106", "title": "The number of false alarms of a line segment", "statement": "For a rectangle with k aligned among n pixels, the value that decides about a segment (and is returned to the caller with LSD_REFINE_ADV) is -log10 of the number of tests times the probability of at least k hits in n trials with probability p, up to the relative error of a tenth which the code accepts.", "quantifier": "for all n, k, p and numbers of tests", "why_tests_cant": "The value has no simple closed form to compare with, and a wrong one still lets clear segments pass; tests would need an independent exact binomial tail for all n, k and p.", "anchors": ["aslam_cv_detector/src/lsd/lsd-opencv.cc:1208-1244"]}
{"id": "C107", "title": "Counting and improving the rectangles of line segments", "statement": "To validate a line segment (LSD_REFINE_ADV), the detector counts the pixels of the image in its rectangle and how many of them are aligned, reading no pixel outside the image and none twice. Improving a rectangle never makes its value worse, leaves a good rectangle alone, returns the value of the rectangle it leaves, and this is a part of the old one with the same direction and length.", "quantifier": "for all rectangles, image sizes, thresholds and value functions", "why_tests_cant": "The counts are internal and each rectangle shape takes its own path through the corner order and the steps; tests on whole images only see that some segments are missing.", "anchors": ["aslam_cv_detector/src/lsd/lsd-opencv.cc:980-1206"]}
{"id": "C108", "title": "The absolute conic gives the focal lengths", "statement": "From complete views of a planar target by a pinhole camera whose principal point is the centre of the image, initFocalLengthAbsoluteConic recovers both focal lengths exactly if one of the planes is tilted about both axes; views that carry no information about the focal length are reported by returning false, and incomplete views do not influence the result.", "quantifier": "every number of views, every pose of the target in each of them, all focal lengths and image sizes, every content of uninitialised memory", "why_tests_cant": "a test uses a few poses and usually fresh memory that happens to contain zeros", "anchors": ["aslam_cv_calibration/src/focallength-initializers.cc:114-201"]}
{"id": "C109", "title": "A Jacobian passes the finite difference test exactly if it is right up to a known error", "statement": "The numerical Jacobian computed by NumericalDiff differs from the true derivatives by at most h^4/30 times the largest fifth derivative in the default scheme (h^2/6 times the third for Central, h/2 times the second for Forward), each coordinate being moved alone and put back; it reports failure exactly if the functor fails at one of the points it needs; so TEST_JACOBIAN_FINITE_DIFFERENCE accepts no Jacobian that is further off than the tolerance plus this error, and accepts all that are nearer than the tolerance minus it. The STEP argument is the step size.", "quantifier": "all functors with any number of inputs and values, all evaluation points, steps, tolerances, and all contents of the matrix before the call", "why_tests_cant": "the test macro is itself the test: a wrong weight or a coordinate that is not put back can make wrong Jacobians pass, for functions that no unit test of the tester tries", "anchors": ["aslam_cv_common/include/aslam/common/numdiff-jacobian-tester.h:48-198"]}
{"id": "C110", "title": "Masks of cameras", "statement": "Camera::isMasked reports a keypoint as not masked exactly if it lies in the image and the pixel of the mask under it, if a mask is set, is not zero; it never reads outside of the mask; a mask that was set stays as it was, and a cloned camera keeps the mask the original had when it was cloned.", "quantifier": "For all image sizes, masks and keypoints and all sequences of setMask, clearMask, size changes, clones and writes of the caller into their own matrices.", "why_tests_cant": "Tests call isMasked on one camera right after setMask with a few keypoints; aliasing, resizing and NaN need all sequences of calls.", "anchors": ["aslam_cv_cameras/include/aslam/cameras/camera.h:624-633", "aslam_cv_cameras/src/camera.cc:429-446", "aslam_cv_cameras/include/aslam/cameras/camera.h:187-232"]}
{"id": "C111", "title": "Delays of rolling shutter cameras", "statement": "rollingShutterDelayNanoSeconds of a keypoint is the number of its line (row, for the lidar column) times the line delay; keypoints of later lines have larger delays; maxRollingShutterDelayNanoSeconds is the time in which all lines are read and is not exceeded by any keypoint of the image; without line delay all delays are zero.", "quantifier": "For all cameras of both classes, image sizes, line delays and keypoints, including those outside of the image and products that do not fit into 64 bits.", "why_tests_cant": "The tests of the repository do not call these functions; the statement ranges over all keypoints and over sizes for which arithmetic wraps around.", "anchors": ["aslam_cv_cameras/include/aslam/cameras/camera.h:436-483", "aslam_cv_cameras/include/aslam/cameras/camera-3d-lidar.h:250-282"]}
{"id": "C112", "title": "Equality of cameras, rigs, frames and multi-frames", "statement": "operator== of cameras, camera rigs, frames and multi-frames never fails and is an equivalence: reflexive, symmetric and transitive; clones are equal to the original; objects that are equal behave the same, in particular equal cameras see a point at the same pixel up to the rounding allowed for.", "quantifier": "For all cameras of the three classes with any intrinsics and distortions, all rigs, frames and multi-frames, including those with null members.", "why_tests_cant": "Tests compare an object with itself, with a clone and with a few modified copies; symmetry, transitivity and the meaning of equality quantify over all pairs and triples of objects.", "anchors": ["aslam_cv_cameras/src/camera.cc:77-104", "aslam_cv_common/src/sensor.cc:90-123", "aslam_cv_cameras/src/ncamera.cc:395-431", "aslam_cv_frames/src/visual-frame.cc:28-48", "aslam_cv_frames/src/visual-nframe.cc:195-219"]}
{"id": "C113", "title": "Frames made by the visual pipelines", "statement": "VisualPipeline::processImage refuses images of another size than the input camera and otherwise returns a frame with the given time, the input and output cameras, the raw image (own copy if requested) and, at the same index in every channel, position, score, orientation, scale, uncertainty and descriptor of each keypoint the extractor kept in the preprocessed image; a pipeline can be used any number of times and destroyed without touching freed memory.", "quantifier": "For all detectors and extractors that keep the contract of OpenCV, all images, preprocessing functions and sequences of calls and of writes of the caller into their images.", "why_tests_cant": "Tests of pipelines run one detector on one image; alignment after the extractor drops keypoints, ownership of the detector objects and aliasing of images need all sequences and results.", "anchors": ["aslam_cv_pipeline/src/visual-pipeline.cc:11-57", "aslam_cv_pipeline/src/visual-pipeline-brisk.cc:33-112", "aslam_cv_pipeline/src/visual-pipeline-freak.cc:43-115"]}
{"id": "C114", "title": "Generated camera rigs are where they say they are", "statement": "The cameras of createTestNCamera look forward, upright, and are displaced along x by 0.1 m each; those of createSurroundViewTestNCamera look to the front, left, back and right of the body, upright, from the positions t_B_C given for them.", "quantifier": "For every number of cameras, every camera of the rigs and every point.", "why_tests_cant": "Tests only use the rigs as some input; none looks at where the cameras are.", "anchors": ["aslam_cv_cameras/src/random-camera-generator.cc:16-83"]}
{"id": "C115", "title": "The focal length from vanishing points is exact for ideal views and fails visibly otherwise", "statement": "initFocalLengthVanishingPoints estimates the focal length from complete views of a grid: if the corners of every row of every complete view lie on circles that pass through two common points at distance pi*f, it returns true with fu = fv = f and the principal point at the image centre, whatever the order of the corners and however many incomplete views are present; an estimate always is the median of distances between common points of two fitted circles; and when no estimate is possible it returns false instead of an arbitrary number.", "quantifier": "for all lists of observations, all grids, all orders of the corner ids and all real corner coordinates", "why_tests_cant": "Tests use a few rendered views of one target; that straight rows (no distortion) or rows on one circle turn into NaN guesses that reach the median, and that one such view spoils all others, only shows when all coordinates are considered.", "anchors": ["aslam_cv_calibration/src/focallength-initializers.cc:28", "aslam_cv_calibration/include/aslam/calibration/helpers.h:22"]}
{"id": "C116", "title": "Images compare equal exactly if all their values agree", "statement": "ImagesEqual (and EXPECT_NEAR_OPENCV / ASSERT_NEAR_OPENCV) succeeds exactly if both images have the same type and size and the absolute difference of each pair of corresponding values does not exceed the tolerance; it is reflexive for finite images and symmetric.", "quantifier": "for all images (all sizes, depths, channel counts and values) and all tolerances", "why_tests_cant": "Tests compare a few single-channel images; that only a part of each row is compared for images with several channels, that the tolerance is relative or ignored, and that double images are never equal needs all values and channel counts.", "anchors": ["aslam_cv_common/include/aslam/common/opencv-predicates.h:39"]}
{"id": "C117", "title": "KAZE derivatives and detector response are exact and treat both axes alike", "statement": "The multiscale derivatives of KAZE (compute_scharr_derivatives, Compute_Multiscale_Derivatives) are the scale-normalised partial derivatives of the image and the detector response is the scale-normalised determinant of its Hessian, at every pixel and every scale; the response does not depend on brightness, grows with the square of the contrast, and is mirrored or transposed with the image.", "quantifier": "for all images, all sizes, all pixels and all scales (sigma_size)", "why_tests_cant": "A test compares a few pixels of a few images at the default scales; exactness for all polynomial patches, symmetry for all images and the behaviour next to the border and at extreme scales need a proof over all images.", "anchors": ["aslam_cv_detector/src/kaze/nldiffusion_functions.cpp:204", "aslam_cv_detector/src/kaze/KAZE.cpp:197"]}
{"id": "C118", "title": "Helper functions of KAZE", "statement": "Scaling an image for display maps its smallest value to 0, its greatest to 1 and every other value affinely between; the ratio test appends the points of exactly the clear matches, in order; a homography keeps exactly the pairs of points that it maps to within the error, in order; two images drawn side by side show the first image left and the second right, whatever their resolutions; a homography read from a file is the one of the file with last entry 1, and an incomplete file is not accepted.", "quantifier": "for all images, lists of matches and points, homographies, errors and files", "why_tests_cant": "Tests would use images of one size and well-formed files; the claim is about flat and bright images, lists of any length, images of different sizes and incomplete files.", "anchors": ["aslam_cv_detector/src/kaze/utils.cpp:33-83", "aslam_cv_detector/src/kaze/utils.cpp:162-177", "aslam_cv_detector/src/kaze/utils.cpp:207-246", "aslam_cv_detector/src/kaze/utils.cpp:249-340", "aslam_cv_detector/src/kaze/utils.cpp:343-387"]}
{"id": "C119", "title": "Keypoint identifiers and feature tracks", "statement": "A keypoint identifier is created exactly for a keypoint that exists in the multi-frame, and from then on gives its coordinates, descriptor, frame, camera and pose; a track is the list of its observations in the order they were added, the last of which can be removed; tracks are ordered by length consistently, continued tracks by id; every list of tracks can be printed.", "quantifier": "for all multi-frames, indices, modifications by other owners, tracks and ids", "why_tests_cant": "Tests create a handful of identifiers and never change the frame under them; the claim is about every sequence of modifications, every list of tracks and ids beyond the range of int.", "anchors": ["aslam_cv_frames/include/aslam/frames/keypoint-identifier.h:28-80", "aslam_cv_frames/include/aslam/frames/feature-track.h:11-113", "aslam_cv_frames/include/aslam/frames/feature-track-inl.h:7-58"]}
{"id": "C120", "title": "Drawing and comparing line segments", "statement": "Comparing two sets of line segments counts the pixels that belong to exactly one of them: a distance that is symmetric, zero exactly if both cover the same pixels, and satisfies the triangle inequality, whatever the order of the segments and whatever the container they are stored in; an image passed along is coloured blue and red accordingly and otherwise unchanged; drawing makes the segments red on grey; comparisons can be shown with and without an image.", "quantifier": "for all sets of segments, containers, image sizes and images, and whatever pixels a line consists of", "why_tests_cant": "Tests compare a few vectors of lines; the metric laws quantify over all sets, and the failures concern containers and images that tests do not use.", "anchors": ["aslam_cv_detector/src/lsd/lsd-opencv.cc:1265-1298", "aslam_cv_detector/src/lsd/lsd-opencv.cc:1301-1374"]}
{"id": "C121", "title": "Matrices as keys of hash tables", "statement": "Equal matrices have the same hash, so that a hash table with matrices as keys finds exactly the values that were stored for an equal key, whatever the collisions; matrices that differ in one element, or in their size, have different hashes.", "quantifier": "for all matrices, scalar types, sequences of insertions and numbers of buckets", "why_tests_cant": "Tests look up a few keys; the claim quantifies over all tables and collisions, keys with NaN and keys of different sizes.", "anchors": ["aslam_cv_common/include/aslam/common/eigen-hash.h:10-22"]}
{"id": "C122", "title": "Poses from keypoints and landmarks", "statement": "absolutePoseRansac and absoluteMultiPoseRansac (and their pinhole variants) pair every keypoint with the landmark of the same index and the mounted camera it belongs to, so that a pose fits a correspondence exactly iff the camera sees the landmark at the keypoint from there; the inliers they return are the correspondences whose ray deviates from the landmark by less than the angle of pixel_sigma as seen from the returned pose; keypoints that cannot be back-projected take no part; the pose is refined over the inliers if requested, also for calibration targets; without success the pose is unchanged.", "quantifier": "for all cameras, rigs, keypoints, landmarks, poses, and all results of the solver that respect its contract", "why_tests_cant": "A test solves a few noise-free scenes; which pose the inliers refer to, what happens to failed back-projections, or whether the refinement ran, does not show there.", "anchors": ["aslam_cv_geometric_vision/src/pnp-pose-estimator.cc: absolutePoseRansacPinholeCam, absoluteMultiPoseRansacPinholeCam, absolutePoseRansac, absoluteMultiPoseRansac", "aslam_cv_calibration/src/target-algorithms.cc: estimateTargetTransformation"]}
{"id": "C123", "title": "Random points of cameras, and their parameters", "statement": "createRandomKeypoint gives a keypoint that is visible and can be back-projected, away from the border for pinhole cameras and lidars, and every such keypoint can occur; createRandomVisiblePoint gives a point at the given distance that is visible at a random keypoint, for negative depths at a random distance; cameras and lenses hold valid parameters of the size they report, and refuse others.", "quantifier": "for all cameras, lenses, image sizes, depths, random numbers and parameter vectors", "why_tests_cant": "Random helpers are used by tests, not tested; a test sees a handful of draws of one camera, and not the draws that fall back to the centre or the cameras for which this always happens.", "anchors": ["aslam_cv_cameras/src/camera-pinhole.cc: createRandomKeypoint, createRandomVisiblePoint, areParametersValid", "aslam_cv_cameras/src/camera-unified-projection.cc: createRandomKeypoint, createRandomVisiblePoint, areParametersValid", "aslam_cv_cameras/src/camera-3d-lidar.cc: createRandomKeypoint, createRandomVisiblePoint, areParametersValid", "aslam_cv_cameras/include/aslam/cameras/camera.h: setParameters", "aslam_cv_cameras/src/distortion.cc: setParameters"]}
{"id": "C124", "title": "The timing report says what was measured", "statement": "The clock text of a duration is hours, minutes and seconds whose sum is the duration to the microsecond, texts sort like durations, the columns of the printed table line up, and the YAML file has one block per measured tag under which a reader finds that tag's numbers.", "quantifier": "for every duration and every history of tags and resets", "why_tests_cant": "rounding at the end of a minute, negative and huge durations, colliding labels and stale files are inputs nobody times on purpose", "anchors": ["aslam_cv_common/src/timer.cc:SecondsToTimeString", "aslam_cv_common/src/timer.cc:WriteToYamlFile", "aslam_cv_common/src/timer.cc:Print"]}
{"id": "C125", "title": "The nonlinear scale space of an image", "statement": "Building the scale space of an image gives as many levels as were allocated, each with the brightness of the first and within its range; changing contrast or brightness of the image changes all levels alike; what the object worked on before has no influence; every image and diffusivity gives valid levels or an error.", "quantifier": "for every image, size, set of levels and steps, filter that is linear and keeps constants, and order of the threads", "why_tests_cant": "needs induction over the levels and all images; flat images and wrong options look like success", "anchors": ["aslam_cv_detector/src/kaze/KAZE.cpp:Create_Nonlinear_Scale_Space", "aslam_cv_detector/src/kaze/KAZE.cpp:Compute_KContrast"]}
{"id": "C126", "title": "Raw image coordinates and border rays", "statement": "A keypoint of a frame converted to coordinates of the raw image is where the raw camera sees the ray of the keypoint: the keypoint itself if the image was not undistorted, the entry of the undistortion map otherwise; converting many keypoints gives the same as converting each; the eight border rays are those of the corners and the middles of the sides; the Jacobian of the homogeneous projection is always defined.", "quantifier": "for all cameras, keypoints, frames, numbers of keypoints and contents of the outputs before the call", "why_tests_cant": "two independent computations (map and conversion) must agree for every pixel and camera; stale outputs and uninitialised matrices depend on the history", "anchors": ["aslam_cv_frames/src/visual-frame.cc: toRawImageCoordinates, toRawImageCoordinatesVectorized, getKeypointInRawImageCoordinates", "aslam_cv_cameras/src/camera-pinhole.cc: getBorderRays", "aslam_cv_cameras/src/camera.cc: project4"]}
{"id": "C127", "title": "Descriptors restored from text", "statement": "The descriptors of a frame written to text and read back into any frame are the same matrices in the same order, and after setting the types every query by descriptor type (presence, number, range of keypoints, descriptors, bytes) answers as for the original frame; queries find the first block of the type and the keypoints after those of the earlier blocks; without such a block the number is 0; changing, adding and restoring blocks never separates blocks and types.", "quantifier": "for all frames, descriptor matrices, texts and histories of calls", "why_tests_cant": "the numbers of blocks, their sizes and the order of calls are unbounded; the failures need a frame in use or a missing channel", "anchors": ["aslam_cv_frames/src/visual-frame.cc: serializeDescriptorsToString, deserializeDescriptorsFromString, setDescriptorTypes, getNumKeypointMeasurementsOfType", "aslam_cv_frames/include/aslam/frames/visual-frame.h: 427-470"]}
{"id": "C128", "title": "Pictures of keypoints and matches", "statement": "Drawing keypoints gives the raw image with one dot per keypoint of the type at its pixel; drawing matches gives the new image with one circle at the new keypoint of every match and a line to it from the old keypoint; the picture does not depend on what it was before; indices outside of the keypoints of the type abort; a frame without keypoints of the type gives the plain image.", "quantifier": "for all frames, types, keypoints, lists of matches and pictures before the call", "why_tests_cant": "stale pictures depend on the call before; wrong indices read neighbouring memory silently", "anchors": ["aslam_cv_visualization/src/basic-visualization.cc: drawKeypoints, drawKeypointMatches"]}
{"id": "C129", "title": "All descriptors of an image belong to their keypoints", "statement": "Compute_Descriptors returns one row per keypoint: row i is the descriptor of keypoint i, taken from the level of the scale space that the keypoint names, of the kind, extent and rotation invariance that the type asks for; the rotated types set the angle of the keypoint first and change nothing else of it. The result does not depend on how the iterations of the parallel loop interleave nor on calling it once more, every row has the length of its type and is a unit vector, and more contrast of the image changes nothing. A type that does not exist or a keypoint with a level that does not exist is rejected.", "quantifier": "for all scale spaces, lists of keypoints, types and interleavings of the parallel iterations", "why_tests_cant": "Tests compare single descriptors in one run; they see neither other interleavings nor all combinations of type, level and keypoint.", "anchors": ["aslam_cv_detector/src/kaze/KAZE.cpp:498-642", "aslam_cv_detector/src/kaze/KAZE.cpp:644-756"]}
{"id": "C130", "title": "Undistorting points of a radial-tangential lens converges", "statement": "undistort applied to a distorted point of a radial-tangential lens returns the point again: the Newton iteration never meets a singular Jacobian, reaches the tolerance within its 30 iterations, and the result is quadratically close to the point; distorting the result gives the input within the tolerance; two points of the image never have the same distorted point.", "quantifier": "for all coefficients, points and tolerances (real arithmetic)", "why_tests_cant": "Convergence of an iteration over a continuum of starting points; tests sample a few points of one lens.", "anchors": ["aslam_cv_cameras/src/distortion-radtan.cc:93-118", "aslam_cv_cameras/src/distortion.cc:8-9"]}
{"id": "C131", "title": "Undistorting points of an equidistant lens converges from the inside", "statement": "undistort applied to a distorted point of an equidistant lens returns the point again: every iterate lies on the ray of the point between the distorted point and the point itself, the Jacobian is never singular, the error shrinks by a fixed factor in every iteration, and when the tolerance is reported as reached the distorted result is within it; points near the centre come back exactly.", "quantifier": "for all coefficients, points and tolerances (real arithmetic)", "why_tests_cant": "Convergence of an iteration over a continuum of starting points; tests sample a few points of one lens and compare with a loose tolerance.", "anchors": ["aslam_cv_cameras/src/distortion-equidistant.cc:144-173", "aslam_cv_cameras/src/distortion-equidistant.cc:23-107"]}
{"id": "C132", "title": "Gaussian smoothing of the KAZE detector smooths, and keeps brightness and position", "statement": "gaussian_2D_convolution with a positive sigma replaces every pixel by the mean of its neighbours weighted by the Gaussian of that sigma, over a window of odd size chosen from the given sizes or, if one is 0 or smaller than sigma, from sigma: brightness and contrast pass through, sums are smoothed term by term, no value leaves the range of the image, ramps are unchanged and mirrored images give mirrored results. Every positive sigma is accepted and smooths the image.", "quantifier": "for all images of all sizes, all window sizes and all positive sigmas", "why_tests_cant": "tests use the default sigmas 1.6 and 1; the choice of the window fails only for small ones, and no set of images shows linearity or the range for all", "anchors": ["aslam_cv_detector/src/kaze/nldiffusion_functions.cpp:31-49", "aslam_cv_detector/src/kaze/KAZE.cpp:113-135"]}
{"id": "C133", "title": "Track lengths decide what optical flow gets", "statement": "After each call of the gyro tracker the status track length of a keypoint of frame k is the number of times its track was continued from frame to frame by keypoints with its present status (detected or flow-tracked), the last continuation counting even if the status changed there; a keypoint without a track or whose track has just begun has length 0. Keypoints handed to optical flow have no match in frame k+1 and are detected ones with a length of at least the threshold, or flow-tracked ones with a length below the maximum.", "quantifier": "for all settings with a positive ratio, all histories of calls, all track ids, matches and oracle results", "why_tests_cant": "Tests run two or three frames; a length is a property of the whole history of frames, status changes and track ids.", "anchors": ["aslam_cv_tracker/src/feature-tracker-gyro.cc:296-330", "aslam_cv_tracker/src/feature-tracker-gyro.cc:453-507"]}
{"id": "C134", "title": "Cameras of the factory and the lenses they own", "statement": "createCamera gives a camera that reports exactly the id, type, intrinsics, image size, lens type and coefficients it was asked for and is valid, for every camera type, and stops the program for invalid input. Every camera owns its lens alone: a lens handed over is no longer the caller's, no lens is shared, leaked or used after its deletion, a clone reports the same as the original, and no operation on one camera changes what another one reports. Setters store what they are given, and what cameras report stays valid.", "quantifier": "all sequences of creating, cloning, changing and dropping cameras and lenses, in any order and number, all parameters", "why_tests_cant": "Ownership and independence are statements about all histories; a unit test creates one camera or one clone and looks once.", "anchors": ["aslam_cv_cameras/src/camera-factory.cc:17-64", "aslam_cv_cameras/include/aslam/cameras/camera.h:187-200", "aslam_cv_cameras/include/aslam/cameras/camera.h:549-598", "aslam_cv_cameras/src/camera.cc:41-65"]}
{"id": "C135", "title": "Objects in YAML files", "statement": "serializeToFile replaces the file by the document of the object, leaves every other file alone, aborts with an unchanged disk exactly if there is no document or the file cannot be opened, and otherwise the file then holds the whole document. deserializeFromFile and Load report a file that is missing, cannot be opened, is no document or (Load) is no object with false and leave the object alone, and let no exception out; what was written is what is read, in particular a valid camera is read back equal. After any sequence of writes a file holds the object written last. Save returns true exactly if the object is in the file.", "quantifier": "for all objects, documents, file names, disks and sequences of writes", "why_tests_cant": "Full disks, missing permissions, documents that are cut off and exceptions during conversion are not set up in unit tests; the statement is over all of them and over all sequences of calls", "anchors": ["aslam_cv_common/include/aslam/common/yaml-file-serialization.h:20-43", "aslam_cv_common/include/aslam/common/yaml-serialization.h:58-97"]}
{"id": "C136", "title": "Owners of aligned memory", "statement": "Objects held by the pointer types of the library (UniquePtr made by aligned_unique or from a new expression, Ptr made by aligned_shared, from a new expression or from a UniquePtr, pointers converted to the base class) are destroyed and given back exactly once, by the function that matches their allocation, when their last owner is gone, and never before; nothing is leaked, and a unique pointer is the only owner.", "quantifier": "for all sequences of creating, moving, converting, sharing, copying and dropping owners, and constructors that throw", "why_tests_cant": "The statement is over all histories of owners; leaks, mismatched deallocation and use of freed memory are not observable by assertions in unit tests, and constructors that throw are not tried", "anchors": ["aslam_cv_common/include/aslam/common/memory.h:40-82", "aslam_cv_common/include/aslam/common/macros.h:12-15"]}
{"id": "C137", "title": "Multi-frames hold the frames of their cameras", "statement": "A VisualNFrame has one slot per camera of its rig. In every execution every frame in slot i has the i-th camera of the rig as its camera geometry, setFrame accepts exactly the frames with the camera of the slot and changes only this slot, setNCameras accepts exactly the rigs with as many cameras as there are slots, and gives every frame the new camera and nothing else. Copies and assigned multi-frames show the same frames and share none of them, so that whatever is done through one of two multi-frames without common frames is not visible through the other. Releasing images and clearing keypoints touch exactly the frames of this multi-frame; hasRawImagesInAllFrames says yes exactly if every slot has a frame with an image.", "quantifier": "For every sequence of constructions, copies, assignments, setFrame, unSetFrame, setNCameras, releases and edits of frames and rigs by their other owners, with any number of multi-frames, frames and rigs.", "why_tests_cant": "Tests set a few frames once; they do not mix copies, shared frames, rig changes, self-assignment and multi-frames with empty slots.", "anchors": ["aslam_cv_frames/src/visual-nframe.cc:18-54", "aslam_cv_frames/src/visual-nframe.cc:69-83", "aslam_cv_frames/src/visual-nframe.cc:134-166", "aslam_cv_frames/src/visual-nframe.cc:237-259"]}
{"id": "C138", "title": "Saved keypoints can be read back", "statement": "save_keypoints writes a file that a reader of the usual format understands: the length of the descriptors, their number, and one row per descriptor with the position, 1/r^2, 0, 1/r^2 and the descriptor of its keypoint, in the same order. Every number is read back as the nearest one of six significant digits, so that its relative error is at most five millionths and numbers of at most six digits are kept. The result is 1 if the file was written completely, and -1 with the old file unchanged otherwise; different keypoints give different files.", "quantifier": "For every list of keypoints and matrix of descriptors with finite values, every size of them, and every room on the disk.", "why_tests_cant": "Tests compare a few files; the effect of rounding on all values, of exponents, and of disks that are full is out of their reach.", "anchors": ["aslam_cv_detector/src/kaze/utils.cpp:101-159"]}
{"id": "C139", "title": "Printed targets are what the detector expects", "statement": "create-target-pdf.py prints a target that the detector of aprilgrids can use: the corners of the tag with number columns * row + column are where the target of the same numbers of tags, tag size and spacing has the points with the indices of that tag; the cells of the tag show the bits of its code in a black frame two cells wide, undisturbed by the neighbours; the spaces between the tags are white and the squares between four tags black; nothing is printed outside of the board. The tags of a family differ in all orientations from each other in as many cells as the name of the family says, so that fewer than half as many wrong cells never make a tag look like another one. Every second box of a checkerboard is black, one more box than corners in each direction. Every board the detector accepts can be printed and the other way round, and the defaults agree.", "quantifier": "for all numbers of rows and columns, sizes, spacings and families, all points of the page, all pairs of tags and orientations, all patterns read", "why_tests_cant": "The script has no tests; the C++ tests use images of one fixed board. The distance of the codes is a property of all pairs of tags in four orientations, and the agreement of the drawing with the target holds for every point of a page of any size.", "anchors": ["aslam_cv_calibration/python/create-target-pdf.py:36-87", "aslam_cv_calibration/python/create-target-pdf.py:90-129", "aslam_cv_calibration/python/create-target-pdf.py:132-151", "aslam_cv_calibration/src/target-aprilgrid.cc:55-87", "aslam_cv_calibration/include/aslam/calibration/target-aprilgrid.h:38-44"]}
{"id": "C140", "title": "Spread of sets of descriptors", "statement": "The spread functions of descriptor_utils measure a set of binary descriptors. The mean has for every bit the share of descriptors with that bit. The square of the standard deviation is half of the mean Hamming distance over all ordered pairs of descriptors; the mean absolute deviation is the mean Hamming distance to the rounded mean, and no other descriptor has a smaller one; the square of the standard deviation is at most the mean absolute deviation, which is at most twice as large. Both are zero exactly if all descriptors are equal and do not depend on the order; sets of fewer than two have no spread. pairwiseEuclidianDistances gives the Euclidean distances of all pairs in the order of pdist.", "quantifier": "for all sets of descriptors of all lengths, all orders, all pairs", "why_tests_cant": "The functions have no tests of their own; the identities relate sums over all pairs, bits and orders, and the faults appear only for particular lengths, distances and numbers of descriptors.", "anchors": ["aslam_cv_common/include/aslam/common/descriptor-utils.h:115-132", "aslam_cv_common/include/aslam/common/descriptor-utils.h:134-176", "aslam_cv_common/include/aslam/common/descriptor-utils.h:178-213"]}
{"id": "C141", "title": "Random sensors", "statement": "Sensor::setRandom turns any camera and any camera rig, in whatever state, into a valid sensor with an id that was never handed out before, keeping only its topic and its description. A camera becomes the test camera of its class (parameters, image size, no distortion, no mask, no line delay). A rig gets between 1 and 15 such cameras, all of one class chosen by the sign of the second random number, the checks on their number never fail; the index by id finds exactly the new cameras, each at its place; every camera looks forward along the x axis of the body, upright, and each is displaced by another tenth of a metre in x direction.", "quantifier": "for all cameras and rigs in any state, all sequences of identifiers, all random numbers in [-1, 1], all roundings (monotone, exact on the integers up to 15), all ids", "why_tests_cant": "a test calls setRandom a few times and checks isValid; which members survive, what happens at the ends of the random range and whether the index agrees with the cameras for every draw needs a proof", "anchors": ["aslam_cv_common/src/sensor.cc:25-36", "aslam_cv_cameras/src/ncamera.cc:348-391", "aslam_cv_cameras/src/camera-pinhole.cc:236-252", "aslam_cv_cameras/src/camera-unified-projection.cc:321-338", "aslam_cv_cameras/src/camera-3d-lidar.cc:144-160"]}
{"id": "C142", "title": "Exchanging data with a frame", "statement": "The swap functions of VisualFrame exchange: afterwards the channel (made if it was missing) holds exactly what the caller's matrix held and the caller's matrix holds what the channel held (nothing if it was missing), and no other channel or variable changes; a second swap undoes the first. swapDescriptors exchanges one block and returns the type that the block had. Over any sequence of swaps no data is lost or doubled. Over any sequence of calls the blocks of descriptors and their types belong together and no type that can be read is indeterminate. A null pointer is refused.", "quantifier": "for all frames, all channels, all contents, all sequences of calls", "why_tests_cant": "tests swap once into an empty frame and read back; conservation over arbitrary sequences and an indeterminate return value are invisible to a test", "anchors": ["aslam_cv_frames/src/visual-frame.cc:353-439", "aslam_cv_frames/src/visual-frame.cc:306-342", "aslam_cv_frames/include/aslam/frames/visual-frame.h:261-306"]}
{"id": "C143", "title": "Calls of the line segment detector", "statement": "The constructor of the line segment detector takes exactly the parameters in their documented ranges, and then no derived quantity (threshold of the gradient, least size of a region, kernel of the blur) is undefined. detect refuses empty images, images with several channels, and a request for false alarms below the level REFINE_ADV. Each output array passed gets one value per segment in the order of the segments, an array not passed has no influence on the segments; widths are in pixels of the image given, precisions are the tolerance of the detector (halved a number of times by REFINE_ADV only), the false alarm values exceed log_eps. REFINE_ADV returns segments that REFINE_STD finds, in the same order, each with a part of its rectangle, and leaves out none that is good; a higher log_eps never gives more segments.", "quantifier": "for all parameters, images, sets of output arrays and functions log_gamma, and for every blur and resize", "why_tests_cant": "The relation between the levels and thresholds holds for whole families of images; tests see a few images and one set of parameters.", "anchors": ["aslam_cv_detector/src/lsd/lsd-opencv.cc:511-644", "aslam_cv_detector/src/line-segment-detector.cc:12-16", "aslam_cv_detector/include/lsd/lsd-opencv.h:57-91"]}
{"id": "C144", "title": "Printed ids and hashes of pairs of ids", "statement": "printString, which operator<< writes for typed ids, has ten characters and tells the first and last two bytes of an id; shortHex tells the first two. Different valid ids of a process print differently. The text of printIdContainer can be read back into the texts of the elements in their order. Ids that agree in one word have different hashes, in particular ids made from different numbers; the hash of pairs separates pairs as well as the hash of ids separates ids.", "quantifier": "for all ids, containers, numbers and runs of the generator with any number of threads, seeds and clock values", "why_tests_cant": "Collisions of ten-character texts and of 64-bit hashes are about sets of ids no test enumerates.", "anchors": ["aslam_cv_common/include/aslam/common/unique-id.h:60-147", "aslam_cv_common/include/aslam/common/hash-id.h:61-121", "aslam_cv_common/src/internal/unique-id.cc:8-16"]}
{"id": "C145", "title": "Erasure of columns and rows of matrices", "statement": "eraseIndicesFromContainer for matrices, directly or through OneDimensionAdapter, leaves exactly the columns or rows that are not listed, in their order, with every element initialised and the other dimension unchanged; rows are erased as the columns of the transpose are, and columns and rows may be erased in either order. Lists that are empty, out of order, repeated or out of range, and wrong counts, are refused. Adapters free the matrices they allocated exactly once, keep those of the caller, and nothing is left when all adapters are gone.", "quantifier": "for all matrices of any element type and size, all lists of indices, and all sequences of constructions, copies, swaps, erasures and destructions of adapters", "why_tests_cant": "Tests erase a few lists from small matrices; double frees, leaks and writes outside of a matrix need all sequences and all lists.", "anchors": ["aslam_cv_common/include/aslam/common/stl-helpers-inl.h:10-153", "aslam_cv_common/include/aslam/common/stl-helpers.h:218-242", "aslam_cv_frames/src/visual-frame.cc:572-618"]}
{"id": "C146", "title": "Inliers by RANSAC and lines between matches", "statement": "compute_inliers_ransac gives exactly the pairs of points that the estimator marks as inliers, unbroken and in order, and for a homography the same pairs as compute_inliers_homography; calling it again gives the same. Points that admit no model give no inliers. draw_inliers draws one line for each pair in the requested colour, from the pixel of the first point in the left half of the picture to the pixel that shows the second point in the right half, also for images of different sizes.", "quantifier": "for all lists of pairs, estimators, tolerances, sizes of images, points and colours", "why_tests_cant": "Tests use one pair of images of one size and an estimator that finds a model.", "anchors": ["aslam_cv_detector/src/kaze/utils.cpp:180-204", "aslam_cv_detector/src/kaze/utils.cpp:249-340"]}
{"id": "C147", "title": "Saved pictures of the scale space", "statement": "Save_Scale_Space and Save_Detector_Responses write one picture for each level, each to a file of its own, in which the smallest value of the level is black, the greatest white, and every other value the nearest grey; other files stay, and saving again writes the same pictures. Saving a picture does not change what the detector does afterwards, and failures are visible.", "quantifier": "for all scale spaces with any number and size of levels, all contents of the disk", "why_tests_cant": "Tests do not look at the detector after saving, and cannot cover all images and numbers of levels.", "anchors": ["aslam_cv_detector/src/kaze/KAZE.cpp:2293-2317", "aslam_cv_detector/src/kaze/utils.cpp:33-83"]}
{"id": "C148", "title": "Byte shuffles on ARM, and columns as vectors", "statement": "shuffle_epi8_neon does what the SSSE3 instruction PSHUFB does, for all registers: byte i of the result is 0 if the top bit of byte i of the mask is set, and otherwise the byte named by its low four bits; it reads nothing outside; shuffles compose; with the table of nibbles it counts the bits of all bytes. convertEigenToStlVector gives exactly the columns of the matrix in their order, whatever the vector held before.", "quantifier": "for all registers, masks, matrices and vectors", "why_tests_cant": "There are 2^256 pairs of registers, and no test runs on ARM.", "anchors": ["aslam_cv_common/include/aslam/common/neon-helpers.h:44-58", "aslam_cv_common/include/aslam/common/stl-helpers.h:164-178"]}
{"id": "C149", "title": "Configuration files of April grid targets", "statement": "TargetAprilGrid::TargetConfiguration::fromYaml returns exactly the numbers of tags, the size and the space that the file describes (the space being tagSpacing times tagSize, so that tags repeat every (1 + tagSpacing) sizes), whatever other keys there are; it aborts, and never throws, if the file cannot be loaded, describes another type of target, or holds a number that is not positive; a file that lacks a value is refused.", "quantifier": "for all documents, keys, values (infinite and NaN included) and readers of numbers", "why_tests_cant": "The failures are files with a missing or misspelt key, of which any test holds none or a few; the silently used default looks like a valid target.", "anchors": ["aslam_cv_calibration/src/target-aprilgrid.cc:20-43", "aslam_cv_calibration/include/aslam/calibration/target-aprilgrid.h:38-58"]}
{"id": "C150", "title": "Empty frames and multi-frames", "statement": "createEmptyTestVisualNFrame makes, for every camera rig, a multi-frame of that rig in which every slot holds its own new frame with the camera of that slot, the given time, its own id, no raw image and no keypoints; all frames are set; it changes nothing that existed and two results share no frame, even of the same rig; a null rig aborts. The frames have empty channels of keypoints, uncertainties and one block of descriptors of type 0, and no other channels.", "quantifier": "for all states of rigs, frames and multi-frames, all rigs of any number of cameras, times and ids", "why_tests_cant": "Sharing between results and the CHECK of setFrame depend on the pointers in arbitrary rigs; tests use one rig.", "anchors": ["aslam_cv_frames/src/visual-frame.cc:555-572", "aslam_cv_frames/src/visual-nframe.cc:221-235"]}
{"id": "C151", "title": "Single elements of the channels of a frame", "statement": "getKeypointMeasurement, getKeypointMeasurementUncertainty, -Orientation, -Score, -Scale, -3DPosition, -TimeOffset and getTrackId return the element with the given index of their channel as it was last set or stored through a pointer from get...Mutable; storing an element changes no other element or channel; a missing channel, and every index that is not smaller than the number of elements, aborts; likewise for blocks of descriptors.", "quantifier": "for all states of the channels, channels, numbers of elements and all values of size_t", "why_tests_cant": "The failures are at indices of 2^31 and more, such as the size_t -1, where a read outside of the data need not crash.", "anchors": ["aslam_cv_frames/src/visual-frame.cc:119-241"]}
{"id": "C152", "title": "Extrinsics of camera rigs by index and by id", "statement": "In every history of constructing, copying and changing rigs there is exactly one transformation T_C_B for each camera and no access is outside of the vector; a transformation that is stored by set_T_C_B or through get_T_C_B_Mutable (by index or id) is read back and nothing else changes; get_T_C_B(id) is the transformation of the camera with that id, and aborts for ids of no camera; clones have the transformations and the fixed covariance of the original; replacing a camera keeps them; the covariance is absent until it is given, and then the last one given.", "quantifier": "for all histories of operations on any number of rigs that share cameras, all indices, ids, transformations and covariances", "why_tests_cant": "The id lookup uses an index that is kept beside the cameras, so that errors depend on the history of the rig and of whoever shares its cameras.", "anchors": ["aslam_cv_cameras/src/ncamera.cc:45-92", "aslam_cv_cameras/src/ncamera.cc:202-250", "aslam_cv_cameras/src/ncamera.cc:299-316"]}
{"id": "C153", "title": "Printed tables of feature tracks", "statement": "operator<< for FeatureTracks prints a header and, for each track in order, one line with its id, the camera index of its first observation and its length, in columns of ten characters, so that the numbers can be read back and different tables have different texts, whatever format the stream had; for a rig the tables follow the numbers of the cameras; tracks without observations can be printed; the format of the stream is the same afterwards.", "quantifier": "for all lists of tracks, ids, indices, lengths and formats of the stream", "why_tests_cant": "Which numbers run together and which format is lost depends on values and streams that no test prints.", "anchors": ["aslam_cv_frames/include/aslam/frames/feature-track-inl.h:29-58", "aslam_cv_frames/include/aslam/frames/feature-track.h:45-60"]}
