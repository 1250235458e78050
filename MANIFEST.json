{
 "claims": [
  {
   "property": "C01",
   "status": "proved",
   "theorems": [
    "rwlock_exclusion",
    "rwlock_trace_accepted",
    "rwlock_counters_in_range"
   ],
   "note": "any number of threads, any schedule incl. spurious wake-ups; counters proved to stay in range"
  },
  {
   "property": "C02",
   "status": "proved",
   "theorems": [
    "rwlock_readerfirst_exclusion",
    "rwlock_readerfirst_trace_accepted"
   ],
   "note": "same transition system, reader-first loop conditions"
  },
  {
   "property": "C03",
   "status": "proved",
   "theorems": [
    "rwlock_upgrade_atomic",
    "rwlock_upgrade_refused",
    "rwlock_trace_accepted",
    "rwlock_readerfirst_trace_accepted"
   ],
   "note": "both lock classes"
  },
  {
   "property": "C04",
   "status": "proved",
   "theorems": [
    "rwlock_no_deadlock",
    "rwlock_no_deadlock_unheld",
    "rwlock_no_lost_wakeup",
    "rwlock_drains"
   ],
   "note": "both lock classes; also a bound on the number of steps until the lock is drained"
  },
  {
   "property": "C05",
   "status": "partial",
   "theorems": [
    "rwlock_is_in_use",
    "rwlock_readerfirst_is_in_use_refuted",
    "rwlock_readerfirst_is_in_use_partial"
   ],
   "note": "holds (as an equivalence) for the base class; refuted for the reader-first class, which reports holders but not waiting threads"
  },
  {
   "property": "C06",
   "status": "proved",
   "theorems": [
    "tp_group_exclusion",
    "tp_no_check_failure"
   ],
   "note": "any number of workers and clients, any schedule"
  },
  {
   "property": "C07",
   "status": "proved",
   "theorems": [
    "tp_group_start_order",
    "tp_group_finish_order"
   ],
   "note": ""
  },
  {
   "property": "C08",
   "status": "proved",
   "theorems": [
    "tp_at_most_once",
    "tp_all_executed"
   ],
   "note": ""
  },
  {
   "property": "C09",
   "status": "proved",
   "theorems": [
    "tp_wait_means_idle"
   ],
   "note": ""
  },
  {
   "property": "C10",
   "status": "partial",
   "theorems": [
    "tp_oversleep_refuted",
    "tp_no_oversleep_partial",
    "tp_calm_single_client",
    "tp_calm_no_wait",
    "tp_drains_partial",
    "tp_waiter_notified"
   ],
   "note": "refuted: notify_one of enqueue can be consumed by a thread in waitForEmptyQueue, the task is then never started; proved (with a bound on the number of steps) for schedules in which nobody sleeps in waitForEmptyQueue between insertion and notification, in particular for a single client thread"
  },
  {
   "property": "C100",
   "status": "partial",
   "theorems": [
    "lsx_gradient",
    "lsx_plane",
    "lsx_border",
    "lsx_reads",
    "lsx_bins",
    "lsx_seeds",
    "lsx_chain",
    "lsx_order_refuted"
   ],
   "note": "Gradient, angle, reads and bins are proved. The order is refuted: ll_angle only links the entries of the list by their next pointers (lsx_chain: following them would give each pixel once, highest bins first), but flsd goes through the list by index, so seeds are tried row by row, and afterwards the first pixel again once for each pixel of the last row and column (lsx_seeds, lsx_order_refuted)."
  },
  {
   "property": "C101",
   "status": "partial",
   "theorems": [
    "lgx_aligned",
    "lgx_region",
    "lgx_grown",
    "lgx_component",
    "lgx_aligned_refuted"
   ],
   "note": "Proved for all tolerances as far as it does not concern the angles (lgx_region), and for tolerances below 90 degrees otherwise. Refuted for every tolerance from 90 degrees on, which the constructor accepts (below 180): isAligned only wraps differences above 3/2 pi, so pixels 90 degrees away across angle 0 are rejected."
  },
  {
   "property": "C102",
   "status": "partial",
   "theorems": [
    "lcx_rect",
    "lcx_throw",
    "lcx_oriented",
    "lcx_cover_refuted",
    "lcx_outside_refuted"
   ],
   "note": "Proved over the reals for every region with positive weights: centre, optimal axis, ends, width, direction, and that the call throws exactly for one distinct pixel. Refuted: a pixel of the region can lie outside the rectangle, because the rectangle is taken symmetric about the axis though the extent is not, and the ends reported can have negative coordinates."
  },
  {
   "property": "C103",
   "status": "partial",
   "theorems": [
    "lfx_segments",
    "lfx_ends",
    "lfx_safe",
    "lfx_default",
    "lfx_flat",
    "lfx_tolerance",
    "lfx_throw_refuted",
    "lfx_scaled"
   ],
   "note": "Proved over the reals for refinement levels none and standard and the image after scaling. Freedom from exceptions is proved for angle thresholds of at least 10 degrees (the detector uses 16.5) and refuted for all valid ones: with a threshold of 1 degree a region of one pixel in a small image makes get_theta throw."
  },
  {
   "property": "C104",
   "status": "proved",
   "theorems": [
    "lwx_edge"
   ],
   "note": "End to end through gradient, seeds, region growing, rectangle and refinement, over the reals, at scale one (no blurring and resizing)."
  },
  {
   "property": "C105",
   "status": "partial",
   "theorems": [
    "lax_size",
    "lax_angle",
    "lax_opposite",
    "lax_reverse",
    "lax_detect",
    "lax_matrix_refuted",
    "lax_horizontal",
    "lax_meet",
    "lax_meet_refuted",
    "lax_point"
   ],
   "note": "Proved for std::vector arguments, which is what the library passes. Refuted: in a cv::Mat with one column, which detect and the filters themselves produce, only the first segment is looked at and the others are dropped uncounted; intersection cuts off the fractions, so the point is up to a pixel off and not on the lines; a degenerate segment on a line is reported as parallel; a horizontal line has angle 0 and is outside every range (min, 180] with min > 0. Real numbers instead of floats."
  },
  {
   "property": "C106",
   "status": "partial",
   "theorems": [
    "lnx_trivial",
    "lnx_tail",
    "lnx_excess",
    "lnx_significance_refuted"
   ],
   "note": "Proved exact for k = 0 and k = n. Refuted otherwise: the code uses n + 1 in place of log_gamma(n + 1), so the probability is multiplied by exp(n + 1) / n! (the sum itself is right up to the accepted tenth of the value, lnx_tail) and the significance is overstated by at least log10(n! / exp(n + 1)), which grows without bound. Takes log_gamma to be exact at the integers; real numbers instead of doubles."
  },
  {
   "property": "C107",
   "status": "partial",
   "theorems": [
    "lix_inside",
    "lix_rows_below",
    "lix_rows",
    "lix_axis",
    "lix_count_refuted",
    "lix_value",
    "lix_part",
    "lix_finer"
   ],
   "note": "Memory safety of the count and all claims about the improvement are proved. Refuted: the pixels counted are not those of the rectangle; of a rectangle along the x axis only the column at its start is counted however long it is (the right border starts at the first corner with the least y and its step is 0), of one along the y axis only its left column. The steps are quotients of ints and two of them mix x with y (tailp->p.x for p.y)."
  },
  {
   "property": "C108",
   "status": "partial",
   "theorems": [
    "flx_conic",
    "flx_frontal_refuted",
    "flx_incomplete_refuted"
   ],
   "note": "Exact recovery is proved in real arithmetic for any list of complete views with at least one tilted view (cv::findHomography is an oracle giving an exact homography). The reporting part is false of the code: frontal views give infinite focal lengths and true is still returned (flx_frontal_refuted), and an incomplete view leaves two uninitialised rows in the equations which can make the result any pair of focal lengths (flx_incomplete_refuted)."
  },
  {
   "property": "C109",
   "status": "partial",
   "theorems": [
    "nux_accuracy",
    "nux_exact",
    "nux_success",
    "nux_test",
    "nux_step_refuted"
   ],
   "note": "Proved over the reals for all three schemes, with the sharp constants. The last sentence is false: the argument is the square of a relative step, the distance used is sqrt(max(STEP, 2^-52)) times the coordinate (nux_step_refuted). Rounding of the differences is not modelled."
  },
  {
   "property": "C11",
   "status": "partial",
   "theorems": [
    "tp_valid_future_refuted",
    "tp_all_executed",
    "tp_drains_partial"
   ],
   "note": "refuted: stop() between the unlocked check and the insertion loses the task; proved for tasks inserted while the stop flag is unset"
  },
  {
   "property": "C110",
   "status": "partial",
   "theorems": [
    "mkx_meaning",
    "mkx_write",
    "mkx_without",
    "mkx_safe",
    "mkx_clone",
    "mkx_resize_refuted",
    "mkx_alias_refuted",
    "mkx_nan_refuted"
   ],
   "note": "Meaning, memory safety without size changes and independence of clones are proved. Refuted: setImageWidth/Height do not check or drop the mask, so that a visible keypoint is looked up outside of it; setMask shares the matrix of the caller; a NaN keypoint is not masked without a mask and undefined behaviour with one."
  },
  {
   "property": "C111",
   "status": "partial",
   "theorems": [
    "rsx_delay",
    "rsx_order",
    "rsx_max",
    "rsx_total",
    "rsx_global",
    "rsx_lidar_refuted",
    "rsx_last_refuted",
    "rsx_before_refuted",
    "rsx_overflow_refuted",
    "rsx_nan_refuted"
   ],
   "note": "Proved for keypoints at or after the first line as long as the product fits into int64_t. Refuted: Camera3DLidar does not override maxRollingShutterDelayNanoSeconds (its function has another name), so that it is computed from the rows and visible keypoints are read after it; it is one line more than the time between the first and the last row; the line before the first has the delay of the first; products wrap around; NaN is undefined."
  },
  {
   "property": "C112",
   "status": "partial",
   "theorems": [
    "eqx_meaning",
    "eqx_refl",
    "eqx_sym",
    "eqx_projection",
    "eqx_rig",
    "eqx_rig_refl",
    "eqx_frame",
    "eqx_nframe",
    "eqx_without_system",
    "eqx_transitive_refuted",
    "eqx_ignored_refuted",
    "eqx_null_refuted"
   ],
   "note": "Meaning, reflexivity, symmetry, clones and the bound on projections are proved. Refuted: equality is not transitive (isApprox); masks of cameras, covariances of rigs and ids and raw cameras of frames are ignored; a multi-frame with frames that are null cannot be compared even with itself."
  },
  {
   "property": "C113",
   "status": "partial",
   "theorems": [
    "vpx_channels",
    "vpx_copy",
    "vpx_shared",
    "vpx_brisk",
    "vpx_size",
    "vpx_freak_refuted"
   ],
   "note": "Proved for the common code and the life of the BRISK pipeline, with detector, extractor and undistortion as oracles. Refuted for FREAK: its members are reset with the raw pointers inside temporary cv::Ptr objects, which free the detector and the extractor at the end of the statement; every use and the destruction are undefined behaviour."
  },
  {
   "property": "C114",
   "status": "partial",
   "theorems": [
    "trx_test",
    "trx_quaternion",
    "trx_surround",
    "trx_intended",
    "trx_offset_refuted",
    "trx_surround_refuted"
   ],
   "note": "Orientations are proved, and where the cameras are. Refuted: the cameras of the test rig are displaced along y of the body; the surround view rig uses -t_B_C as translation of T_C_B without rotating it, so that no camera is at its position (the first is to the right of the body instead of in front)."
  },
  {
   "property": "C115",
   "status": "partial",
   "theorems": [
    "vnx_exact",
    "vnx_between",
    "vnx_median",
    "vnx_none",
    "vnx_skip",
    "vnx_straight_refuted",
    "vnx_same_refuted"
   ],
   "note": "Exactness for ideal views, the meaning of an estimate, and the meaning of 'false' are proved. The last claim is false: one straight row (an image without distortion) or two rows on the same circle in any complete view makes a NaN guess, and true is returned with focal lengths that come from NaN."
  },
  {
   "property": "C116",
   "status": "partial",
   "theorems": [
    "imx_whole",
    "imx_float",
    "imx_default",
    "imx_double",
    "imx_unit",
    "imx_sym",
    "imx_equal",
    "imx_finite",
    "imx_channels_refuted",
    "imx_absolute_refuted",
    "imx_double_refuted"
   ],
   "note": "Exact for single-channel images of whole numbers (equality, the tolerance is ignored) and of floats (relative tolerance). False in general: with several channels only the first cols + channels - 1 scalars of each row are compared, the tolerance is not absolute, and images of doubles are never equal."
  },
  {
   "property": "C117",
   "status": "partial",
   "theorems": [
    "kdx_gradient",
    "kdx_hessian",
    "kdx_contrast",
    "kdx_mirror",
    "kdx_transpose",
    "kdx_border_refuted",
    "kdx_transpose_refuted",
    "kdx_scale_refuted"
   ],
   "note": "Exact on every quadratic patch that is one (gradient) or two (Hessian) scales away from the border; brightness, contrast and mirroring everywhere; transposition away from the border. False at the border: first derivatives across the border are always zero and the response changes when rows and columns are exchanged; scales from 500 overflow the kernel buffer, scale 0 gives an infinite kernel. Real arithmetic without rounding."
  },
  {
   "property": "C118",
   "status": "partial",
   "theorems": [
    "kux_scale",
    "kux_range",
    "kux_flat_refuted",
    "kux_bright_refuted",
    "kux_nndr",
    "kux_single_refuted",
    "kux_inliers",
    "kux_odd_refuted",
    "kux_compose",
    "kux_compose_refuted",
    "kux_homography",
    "kux_short_refuted"
   ],
   "note": "Scaling, ratio test, inliers, composition and reading proved for well-formed inputs. Refuted: flat images become NaN; if all values exceed 1000, 1000 is subtracted; a single candidate or an odd list is read out of bounds; a smaller second image is read out of bounds although a resized copy is computed; incomplete homography files are accepted and give NaN."
  },
  {
   "property": "C119",
   "status": "partial",
   "theorems": [
    "kfx_create",
    "kfx_create_defined",
    "kfx_access",
    "kfx_stable",
    "kfx_replaced_refuted",
    "kfx_rig_refuted",
    "kfx_add",
    "kfx_ends",
    "kfx_pop_refuted",
    "kfx_order",
    "kfx_same_length_refuted",
    "kfx_continue",
    "kfx_continued_order",
    "kfx_continue_refuted",
    "kfx_print",
    "kfx_print_refuted",
    "kfx_print_one"
   ],
   "note": "Creation, access and stability under modifications elsewhere, list behaviour, orders and printing proved. Refuted: other owners can replace keypoints or frames under an identifier; a multi-frame without rig gives identifiers whose camera aborts; popping an empty track is undefined; ids from 2^31 abort or wrap to other ids when a track is continued; a list with an empty track cannot be printed."
  },
  {
   "property": "C12",
   "status": "proved",
   "theorems": [
    "np_synchronised",
    "np_pairwise_close",
    "np_delivered_once",
    "np_no_failure",
    "np_camera_check_refuted"
   ],
   "note": "for existing camera indices; index == number of cameras passes the CHECK_LE and is undefined behaviour (np_camera_check_refuted)"
  },
  {
   "property": "C120",
   "status": "partial",
   "theorems": [
    "lcx_number",
    "lcx_metric",
    "lcx_set",
    "lcx_image",
    "lcx_column_refuted",
    "lcx_show_refuted",
    "lcx_show",
    "lcx_region_refuted",
    "lcx_draw",
    "lcx_draw_throws",
    "lcx_index",
    "lcx_index_refuted"
   ],
   "note": "Proved for vectors of segments, with cv::line and cv::cvtColor as oracles. Refuted: of a one-column matrix, which detect writes into a cv::Mat, only the first segment is compared; showing without image always throws because the canvas has one channel; regions of interest throw; the byte index wraps for images of more than 2^32/3 pixels."
  },
  {
   "property": "C121",
   "status": "partial",
   "theorems": [
    "ehx_range",
    "ehx_equal",
    "ehx_last",
    "ehx_collision_refuted",
    "ehx_shape_refuted",
    "ehx_table",
    "ehx_nan",
    "ehx_mixed_refuted"
   ],
   "note": "Tables with keys of one size are proved to work; matrices that differ only in the last element have different hashes. Refuted: neighbouring cells of a grid collide, e.g. (0, 61) and (1, 0); the size is not part of the hash, so that keys of different sizes collide and their comparison is an assertion of Eigen; keys with NaN are never found."
  },
  {
   "property": "C122",
   "status": "partial",
   "theorems": [
    "pnx_single",
    "pnx_rig",
    "pnx_inliers_single",
    "pnx_inliers_rig",
    "pnx_failure",
    "pnx_defined",
    "pnx_refined",
    "pnx_refined_refuted",
    "pnx_flag",
    "pnx_target_refuted",
    "pnx_target",
    "pnx_failed_refuted",
    "pnx_mixed_refuted"
   ],
   "note": "Pairing, inliers of the unrefined pose, failure and definedness proved. Refuted: inliers and distances of a refined pose are those of the pose before (pnx_refined_refuted); the single-camera version ignores run_nonlinear_refinement, so calibration targets are never refined (pnx_flag, pnx_target_refuted); failed back-projections take part (pnx_failed_refuted); in a rig with different focal lengths pixel_sigma is no pixel distance of a single camera (pnx_mixed_refuted)."
  },
  {
   "property": "C123",
   "status": "partial",
   "theorems": [
    "rpx_box",
    "rpx_pinhole",
    "rpx_near_refuted",
    "rpx_negative_refuted",
    "rpx_lidar",
    "rpx_tries",
    "rpx_direction",
    "rpx_unified",
    "rpx_reach",
    "rpx_reach_refuted",
    "rpx_parabolic_refuted",
    "rpx_twentieth_refuted",
    "rpx_unified_point",
    "rpx_centre_refuted",
    "rpx_valid",
    "rpx_lens",
    "rpx_set_refuted",
    "rpx_set",
    "rpx_default_refuted"
   ],
   "note": "Positive parts proved. Refuted: negative depths abort (rpx_negative_refuted); points nearer than 1e-10 are not visible (rpx_near_refuted); the unified camera returns the centre for xi = 1 (rpx_parabolic_refuted), also if outside of the image (rpx_centre_refuted), throws its twentieth draw away (rpx_twentieth_refuted) and never draws liftable keypoints for larger xi (rpx_reach_refuted); Camera::setParameters accepts invalid parameters (rpx_set_refuted); the default lidar has three parameters (rpx_default_refuted)."
  },
  {
   "property": "C124",
   "status": "partial",
   "theorems": [
    "tsx_clock",
    "tsx_below_sixty",
    "tsx_sixty_refuted",
    "tsx_order",
    "tsx_order_refuted",
    "tsx_defined",
    "tsx_length",
    "tsx_signed",
    "tsx_negative_refuted",
    "tsx_columns",
    "tsx_sorted",
    "tsx_columns_refuted",
    "tsx_query_refuted",
    "tsx_yaml",
    "tsx_yaml_plain",
    "tsx_yaml_only",
    "tsx_yaml_refuted",
    "tsx_stale_refuted"
   ],
   "note": "Refuted: 59.9999999 s reads 00:00:60.000000; a negative duration gives no clock text; 100 hours sort before 99; tags that differ only in colon and hash share a YAML key; WriteToYamlFile leaves the old file after Reset; a query of an unknown tag adds a row."
  },
  {
   "property": "C125",
   "status": "partial",
   "theorems": [
    "ssx_empty",
    "ssx_defined",
    "ssx_conserves",
    "ssx_range",
    "ssx_relit",
    "ssx_reuse",
    "ssx_layers",
    "ssx_unsupported_refuted",
    "ssx_flat_refuted",
    "ssx_zero_contrast",
    "ssx_aspect_refuted",
    "ssx_overshoot_refuted"
   ],
   "note": "Refuted: an unsupported diffusivity returns success and copies the first level; a flat image gives levels that are not numbers (contrast factor 0); the implicit scheme has no result for images that are not square; a cycle of four explicit steps makes a pixel darker than the darkest of the level before, with all conductivities from 1/10 to 1. The range is proved for the implicit scheme and for explicit steps up to a quarter."
  },
  {
   "property": "C126",
   "status": "partial",
   "theorems": [
    "rcx_many",
    "rcx_index",
    "rcx_index_checked",
    "rcx_same_pinhole",
    "rcx_same_unified",
    "rcx_map",
    "rcx_map_pinhole",
    "rcx_border",
    "rcx_places",
    "rcx_border_seen",
    "rcx_jacobian",
    "rcx_index_refuted",
    "rcx_no_raw_refuted",
    "rcx_failed_refuted",
    "rcx_map_refuted",
    "rcx_border_refuted",
    "rcx_jacobian_refuted"
   ],
   "note": "Refuted: for keypoints without ray the single conversion leaves the output and the vectorised one writes coordinates; frames without raw camera use a null pointer; indices from 2^31 on pass the CHECK; for rays to the back the undistortion map and the conversion disagree; border rays of unified cameras with xi > 1 may belong to no keypoint; the homogeneous Jacobian of an invalid unified projection is uninitialised, the lidar aborts."
  },
  {
   "property": "C127",
   "status": "partial",
   "theorems": [
    "dsx_queries",
    "dsx_absent",
    "dsx_change",
    "dsx_roundtrip",
    "dsx_settled",
    "dsx_types_refuted",
    "dsx_stale_refuted",
    "dsx_unset_refuted"
   ],
   "note": "Refuted: reading descriptors into a new frame leaves it without types, every query and change then aborts until setDescriptorTypes is called; reading them into a frame in use keeps the old types, a type without block is then read outside of the vector; counting the keypoints of a type aborts without a descriptor channel although the documentation promises 0."
  },
  {
   "property": "C128",
   "status": "partial",
   "theorems": [
    "drx_keypoints",
    "drx_matches",
    "drx_far_refuted",
    "drx_stale_refuted",
    "drx_negative_refuted",
    "drx_missing_refuted",
    "drx_nearest_refuted"
   ],
   "note": "Refuted: without keypoints of the type drawKeypoints leaves the picture of the call before; negative indices pass the check and draw a keypoint of the type before or read outside; drawKeypointMatches aborts for frames without the type even without matches; dots are not on the nearest pixel. How OpenCV sets the pixels of a mark is not modelled."
  },
  {
   "property": "C129",
   "status": "partial",
   "theorems": [
    "kdx_rows",
    "kdx_order",
    "kdx_good",
    "kdx_rows_contrast",
    "kdx_types",
    "kdx_unknown_refuted",
    "kdx_level_refuted"
   ],
   "note": "Proved for every interleaving of the iterations: rows, angles, independence of the order, idempotence, lengths and unit norm (a flat neighbourhood gives a row that is not a number), contrast. Refuted: an unknown type gives rows of zeros without notice; a level that does not exist is read outside of the vector. Iterations interleave between the orientation and the descriptor, not within them (they share no other state)."
  },
  {
   "property": "C13",
   "status": "proved",
   "theorems": [
    "np_nearest_group",
    "np_right_group_unique"
   ],
   "note": ""
  },
  {
   "property": "C130",
   "status": "partial",
   "theorems": [
    "rix_bend",
    "rix_injective",
    "rix_inverse",
    "rix_default",
    "rix_pinhole",
    "rix_folded_refuted",
    "rix_singular_refuted"
   ],
   "note": "Proved wherever 3|k1|r^2 + 5|k2|r^4 + 6|(p1,p2)|r <= 1/4 at the radius r of the point (the bound on the derivative of the distortion is proved too): error at most a quarter of the square root of the tolerance and at most 4 tol / r; tolerance reached unless it is below r^2 / 2^121; also through projection and back-projection of a pinhole camera. Refuted for stronger distortion: points come back as other points reported as converged, or the Jacobian at the start is singular."
  },
  {
   "property": "C131",
   "status": "partial",
   "theorems": [
    "eix_slope",
    "eix_gentle",
    "eix_none",
    "eix_barrel",
    "eix_inverse",
    "eix_centre",
    "eix_default",
    "eix_pinhole",
    "eix_centre_refuted",
    "eix_folded_refuted"
   ],
   "note": "Proved for every lens that compresses more and more up to the point without folding (in particular without coefficients and with non-positive ones): monotone convergence along the ray with factor 1 - slope(r)/slope(r0), final error in terms of tolerance and slope, tolerance reached within 30 iterations if factor^29 r is within it. Refuted: within 1e-3 of the centre the distorted point itself is returned; lenses that fold return another point."
  },
  {
   "property": "C132",
   "status": "partial",
   "theorems": [
    "kgx_response",
    "kgx_contrast",
    "kgx_sum",
    "kgx_range",
    "kgx_ramp",
    "kgx_mirror",
    "kgx_none_refuted",
    "kgx_negative_refuted",
    "kgx_window_refuted"
   ],
   "note": "cv::GaussianBlur modelled as separable correlation with the normalised sampled Gaussian and replicated border, over real numbers; refuted: for sigma in (0.35, 0.65] the automatic window is one pixel and nothing is smoothed, for sigma <= 0.35 a negative double is converted to size_t, and a given window of one pixel is used for every sigma up to 1"
  },
  {
   "property": "C133",
   "status": "proved",
   "theorems": [
    "glx_lengths",
    "glx_candidates"
   ],
   "note": "Lengths are compared with the longest chain of continuations in the whole recorded history; the keypoints of the first frame count as detected."
  },
  {
   "property": "C134",
   "status": "partial",
   "theorems": [
    "lox_owned",
    "lox_defined",
    "lox_dangling",
    "lox_create",
    "lox_plain",
    "lox_moved",
    "lox_clone",
    "lox_independent",
    "lox_setters",
    "lox_lens",
    "lox_valid_partial",
    "lox_lidar_refuted",
    "lox_valid_refuted",
    "lox_null_refuted",
    "lox_no_lens_refuted"
   ],
   "note": "Ownership, independence, factory and setters proved for all histories. Refuted: the factory makes no lidars (lox_lidar_refuted); setParameters checks only the number of intrinsics (lox_valid_refuted); setDistortion accepts null, after which getters abort (lox_null_refuted); the absent lens accepts any coefficients (lox_no_lens_refuted)."
  },
  {
   "property": "C135",
   "status": "partial",
   "theorems": [
    "yfx_write",
    "yfx_abort",
    "yfx_read",
    "yfx_round_trip",
    "yfx_camera",
    "yfx_save",
    "yfx_save_stream",
    "yfx_load",
    "yfx_save_load",
    "yfx_untouched",
    "yfx_last",
    "yfx_history",
    "yfx_full_refuted",
    "yfx_throws_refuted",
    "yfx_save_refuted",
    "yfx_save_loses_refuted"
   ],
   "note": "All but four parts: serializeToFile and Save do not notice that the disk is full (yfx_full_refuted), exceptions of deserialize leave deserializeFromFile (yfx_throws_refuted), Save returns true without assertions if the file cannot be opened (yfx_save_refuted), and Save that returns false has already emptied the file (yfx_save_loses_refuted). yaml-cpp and the disk are parameters."
  },
  {
   "property": "C136",
   "status": "partial",
   "theorems": [
    "apx_safe",
    "apx_all_returned",
    "apx_drop",
    "apx_moved",
    "apx_empty",
    "apx_throw_refuted",
    "apx_plain_new_refuted",
    "apx_base_refuted"
   ],
   "note": "Proved for all histories in which classes adopted by UniquePtr have Eigen's operator new, bases have virtual destructors and are at the start of the object, and constructors called by aligned_unique do not throw. Refuted otherwise: aligned_unique leaks if the constructor throws; classes without EIGEN_MAKE_ALIGNED_OPERATOR_NEW are freed by the wrong function; other bases cannot own."
  },
  {
   "property": "C137",
   "status": "partial",
   "theorems": [
    "nfx_sound",
    "nfx_consistent",
    "nfx_new",
    "nfx_copy",
    "nfx_assign",
    "nfx_independent",
    "nfx_set_frame",
    "nfx_unset_frame",
    "nfx_all_set",
    "nfx_index",
    "nfx_set_ncameras",
    "nfx_images",
    "nfx_release",
    "nfx_self_assign_refuted",
    "nfx_twice_refuted",
    "nfx_shared_refuted",
    "nfx_edit_rig_refuted",
    "nfx_images_refuted"
   ],
   "note": "Proved for users that give a multi-frame another rig only if its frames are in no other slot, do not change the cameras of frames and rigs in use and do not assign a multi-frame to itself. Refuted without this: self-assignment throws away all slots; a frame in two slots or two multi-frames gets the camera of the last setNCameras; a changed rig leaves the frames behind; image queries abort on empty slots."
  },
  {
   "property": "C138",
   "status": "partial",
   "theorems": [
    "kwx_number",
    "kwx_error",
    "kwx_exact",
    "kwx_file",
    "kwx_lines",
    "kwx_defined",
    "kwx_result",
    "kwx_unmatched",
    "kwx_position_refuted",
    "kwx_full_refuted",
    "kwx_truncated_refuted",
    "kwx_size_refuted"
   ],
   "note": "Text level: printing with six digits, reading back, and the whole file proved. Refuted: different positions give the same file; on a full disk the result is 1 and the file is unreadable or wrong; a keypoint of size zero is written as inf; more descriptors than keypoints are undefined behaviour."
  },
  {
   "property": "C139",
   "status": "partial",
   "theorems": [
    "tpx_tag",
    "tpx_space",
    "tpx_outside",
    "tpx_defined",
    "tpx_corners",
    "tpx_codes",
    "tpx_sizes",
    "tpx_decode",
    "tpx_fits",
    "tpx_checkerboard",
    "tpx_spacing_refuted",
    "tpx_large_refuted",
    "tpx_default_refuted"
   ],
   "note": "Refuted: a board without spaces is printed but its description is not accepted; descriptions with more tags than codes are accepted but not printable; the default board of the script is not the default target of the detector. Everything else is proved."
  },
  {
   "property": "C14",
   "status": "partial",
   "theorems": [
    "np_next_is_oldest",
    "np_latest_is_newest",
    "np_held_back_only_by_older",
    "np_increasing_partial",
    "np_increasing_refuted",
    "np_front_complete_not_delivered_refuted"
   ],
   "note": "order of getNext and hand-over after every image proved; increasing output proved if new groups come in time order, refuted otherwise; after getLatestAndClear() a complete group can stay pending although nothing older is pending (refuted)"
  },
  {
   "property": "C140",
   "status": "partial",
   "theorems": [
    "spx_mean",
    "spx_standard",
    "spx_absolute",
    "spx_bounds",
    "spx_zero",
    "spx_order",
    "spx_few",
    "spx_pairs",
    "spx_pairs_refuted",
    "spx_many_refuted",
    "spx_tail_refuted"
   ],
   "note": "Refuted: distances of pairs are computed with unsigned char, so that none exceeds 15 and different descriptors can have distance zero; from 46342 descriptors on their number overflows; the mean absolute deviation ignores bytes behind the last multiple of 16. The statements about the mean absolute deviation hold for descriptors of 16 to 496 bytes in multiples of 16."
  },
  {
   "property": "C141",
   "status": "partial",
   "theorems": [
    "rgx_valid",
    "rgx_camera",
    "rgx_not_random",
    "rgx_compressed_refuted",
    "rgx_count",
    "rgx_float",
    "rgx_share",
    "rgx_fifteen",
    "rgx_rig",
    "rgx_poses",
    "rgx_offset_refuted",
    "rgx_index",
    "rgx_ids",
    "rgx_covariance_refuted"
   ],
   "note": "Validity, fresh ids, the values of each class, the number and class of the cameras, the index and the poses are proved. False: the flag for compressed images of a camera and the covariance of a rig survive (rgx_compressed_refuted, rgx_covariance_refuted), and the cameras are displaced along the y axis of the body, not x (rgx_offset_refuted); rgx_not_random shows that only the id of a random camera is random, rgx_fifteen that 15 cameras have probability zero before rounding."
  },
  {
   "property": "C142",
   "status": "partial",
   "theorems": [
    "fsx_exchange",
    "fsx_copy",
    "fsx_twice",
    "fsx_null_refuted",
    "fsx_block",
    "fsx_blocks",
    "fsx_first",
    "fsx_type_refuted",
    "fsx_paired",
    "fsx_defined",
    "fsx_conserve"
   ],
   "note": "All but two parts are proved. False: the first swapDescriptors on a frame returns an uninitialised integer (fsx_type_refuted); a null pointer is refused only by swapTrackIds and swapDescriptors, the other seven functions dereference it (fsx_null_refuted). swapChannelData is the same code as swapTrackIds, for any type, and is not modelled separately."
  },
  {
   "property": "C143",
   "status": "partial",
   "theorems": [
    "ldx_construct",
    "ldx_params",
    "ldx_tolerance_refuted",
    "ldx_kernel",
    "ldx_advanced",
    "ldx_refused",
    "ldx_delivered",
    "ldx_widths",
    "ldx_standard",
    "ldx_threshold",
    "ldx_fewer",
    "ldx_colour_refuted"
   ],
   "note": "Two parts are false of the code: with a tolerance close to 180 degrees, which the constructor takes, the least size of a region does not fit into an int (ldx_tolerance_refuted), and an image with several channels of doubles is not refused but searched as a wider grey image (ldx_colour_refuted). The rest is proved."
  },
  {
   "property": "C144",
   "status": "partial",
   "theorems": [
    "itx_text",
    "itx_short",
    "itx_int",
    "itx_unique_refuted",
    "itx_generated",
    "itx_generated_refuted",
    "itx_container",
    "itx_hash",
    "itx_int_hash",
    "itx_basis",
    "itx_pair",
    "itx_pair_refuted"
   ],
   "note": "Refuted: ids of numbers with the same last four digits print the same (itx_unique_refuted), generated ids tell only 16 bits since the last two bytes are the top of the counter, so of 65537 ids two print the same (itx_generated_refuted); the hash of pairs does not separate exchanged pairs and is 0 for all pairs of equal ids (itx_pair_refuted). The rest is proved."
  },
  {
   "property": "C145",
   "status": "partial",
   "theorems": [
    "odx_erase",
    "odx_proper",
    "odx_checked_refuted",
    "odx_transpose",
    "odx_commute",
    "odx_adapter",
    "odx_memory",
    "odx_copy_refuted"
   ],
   "note": "Proved for ordered lists without repetitions, for all matrices, and for all programs that do not copy adapters. Whatever returns was asked for properly. Refuted: an empty list reads the last element of an empty vector, although the code tests for it one statement later; a repeated index is written outside of the result before it is refused; a copied adapter that allocated its matrix frees it twice. Sizes below 2^31."
  },
  {
   "property": "C146",
   "status": "partial",
   "theorems": [
    "kix_ransac",
    "kix_agrees",
    "kix_again_refuted",
    "kix_status_refuted",
    "kix_odd_refuted",
    "kix_lines",
    "kix_colour_refuted",
    "kix_left",
    "kix_right",
    "kix_shows",
    "kix_resolution_refuted"
   ],
   "note": "Proved over real numbers for all pairs, estimators and images; that the end of a line shows the point, for images of one size. Refuted: old inliers are kept, so a second call doubles them; a status for too few points, as OpenCV leaves it when no fundamental matrix is found, is read outside; odd lists are read outside; unknown colours draw nothing; for images of different sizes the lines are scaled but the second image is not."
  },
  {
   "property": "C147",
   "status": "partial",
   "theorems": [
    "ksx_names",
    "ksx_digits",
    "ksx_files",
    "ksx_responses",
    "ksx_twice",
    "ksx_state_refuted",
    "ksx_missing_refuted",
    "ksx_flat_refuted"
   ],
   "note": "Proved for all levels with contrast, over real numbers, for the pixels that imwrite gets. Refuted: the levels in the detector are replaced by the scaled images, even if no file can be written, which nothing reports; a flat level becomes NaN."
  },
  {
   "property": "C148",
   "status": "proved",
   "theorems": [
    "sfx_shuffle",
    "sfx_compose",
    "sfx_popcount",
    "sfx_columns"
   ],
   "note": "Proved for all registers and matrices; composition for second masks that set no byte to 0."
  },
  {
   "property": "C149",
   "status": "partial",
   "theorems": [
    "tyx_read",
    "tyx_accepted",
    "tyx_refused",
    "tyx_keys",
    "tyx_spacing_positive",
    "tyx_default",
    "tyx_spacing",
    "tyx_infinite",
    "tyx_default_refuted",
    "tyx_spacing_refuted",
    "tyx_infinite_refuted"
   ],
   "note": "Proved: complete files give exactly the described configuration; whatever is accepted is of the right type with positive numbers, each said by the file or the default; refusals; only the five keys matter. False: files that lack tagCols, tagRows or tagSize are accepted with 6, 6 and 0.088; without tagSpacing an uninitialised variable is used; infinite sizes are accepted."
  },
  {
   "property": "C15",
   "status": "partial",
   "theorems": [
    "np_complete_dropped_refuted",
    "np_complete_shadowed_refuted",
    "np_oldest_complete_dropped_refuted",
    "np_images_conserved",
    "np_drop_two_newer",
    "np_complete_dropped_behind_incomplete_partial",
    "np_no_shadow_partial",
    "np_completed_delivered"
   ],
   "note": "refuted: the drop heuristic removes complete groups; proved which groups it can remove, conservation of images and delivery of everything completed"
  },
  {
   "property": "C150",
   "status": "proved",
   "theorems": [
    "efx_created",
    "efx_complete",
    "efx_none",
    "efx_apart",
    "efx_channels"
   ],
   "note": "The functions are programs over the models of shared frames (NFrameModel) and of channels (FrameSwapModel); ids are parameters."
  },
  {
   "property": "C151",
   "status": "partial",
   "theorems": [
    "fex_inside",
    "fex_value",
    "fex_outside",
    "fex_wrapped",
    "fex_minus_one",
    "fex_range_refuted",
    "fex_blocks",
    "fex_write",
    "fex_set"
   ],
   "note": "Proved: elements that exist are returned; whatever is returned is that element; writes through pointers; indices outside below 2^31 abort; blocks of descriptors for all indices. False: the index is converted to int before the CHECK, so exactly the indices that are in range or negative as int (2^31 .. 2^32-1, size_t -1, 2^32, ...) read outside of the data."
  },
  {
   "property": "C152",
   "status": "partial",
   "theorems": [
    "rex_defined",
    "rex_each",
    "rex_by_id",
    "rex_set",
    "rex_copy",
    "rex_keep",
    "rex_covariance",
    "rex_construct",
    "rex_id_refuted"
   ],
   "note": "Proved for all histories, the access by id under the hypothesis of C39 that ids of cameras in rigs are not changed and stay distinct. False without it: after setId on two cameras of a rig get_T_C_B(id) returns the transformation of the other camera."
  },
  {
   "property": "C153",
   "status": "partial",
   "theorems": [
    "ttx_printed",
    "ttx_read",
    "ttx_format",
    "ttx_rig",
    "ttx_rig_cons",
    "ttx_columns_refuted",
    "ttx_empty_refuted",
    "ttx_stream_refuted"
   ],
   "note": "Proved: numbers of at most ten digits are read back from their columns; the text does not depend on the format of the stream; tables of rigs. False: longer numbers run together (two tracks, one text); a track without observations aborts; the stream keeps fixed, blank fill and precision 3."
  },
  {
   "property": "C16",
   "status": "partial",
   "theorems": [
    "nw_shutdown_hang_refuted",
    "nw_shutdown_hang_producer_refuted",
    "nw_shutdown_releases_partial"
   ],
   "note": "refuted: flag set without the mutex; proved if the flag is set while no thread is between reading it and wait()"
  },
  {
   "property": "C17",
   "status": "partial",
   "theorems": [
    "sr_matrix_roundtrip",
    "sr_matrix_huge_refuted"
   ],
   "note": "Round trip, size and format proved for all contents and all dimensions below 2^31 (fixed and dynamic); refuted for 2^32+1 rows, where the int conversion silently truncates the matrix."
  },
  {
   "property": "C18",
   "status": "partial",
   "theorems": [
    "sr_matrix_malformed",
    "sr_matrix_reserialize_partial",
    "sr_matrix_reserialize_refuted"
   ],
   "note": "For every byte string: CHECK failure, exception, or a matrix whose format is exactly the buffer; never an access outside. Re-serialization by the code itself proved for dimensions below 2^31 and refuted beyond (a 4294967295 x 0 matrix is accepted but cannot be written)."
  },
  {
   "property": "C19",
   "status": "partial",
   "theorems": [
    "sr_vector_roundtrip",
    "sr_vector_accepted_partial",
    "sr_vector_truncated_refuted",
    "sr_vector_garbage_accepted"
   ],
   "note": "Round trip proved. Malformed buffers: what is accepted begins with the serialization of the result; truncated buffers are read out of bounds (refuted) and trailing garbage is accepted."
  },
  {
   "property": "C20",
   "status": "partial",
   "theorems": [
    "sr_image_roundtrip",
    "sr_image_pixels_refuted",
    "sr_image_malformed_partial",
    "sr_image_overflow_refuted"
   ],
   "note": "Round trip proved; malformed buffers are handled for 1..512 announced channels; with 513 channels the code writes beyond the image, with 0 channels it returns uninitialised pixels (refuted)."
  },
  {
   "property": "C21",
   "status": "proved",
   "theorems": [
    "hx_roundtrip",
    "hx_injective",
    "hx_parse"
   ],
   "note": "All 16-byte ids; strtoul modelled in full."
  },
  {
   "property": "C22",
   "status": "proved",
   "theorems": [
    "hx_from_int"
   ],
   "note": "All unsigned 32-bit arguments."
  },
  {
   "property": "C23",
   "status": "proved",
   "theorems": [
    "hx_generated_unique"
   ],
   "note": "All interleavings of the two steps of the generator, arbitrary clock and seed; std::hash<uint64_t> is taken to be the identity."
  },
  {
   "property": "C24",
   "status": "proved",
   "theorems": [
    "gx_accounting",
    "gx_add"
   ],
   "note": "Exact arithmetic on coordinates; positive cell sizes (the constructor does not check them). setConstantWeightForAllPointsInGrid changes weights, as documented."
  },
  {
   "property": "C25",
   "status": "proved",
   "theorems": [
    "gx_min_distance",
    "gx_near_exact"
   ],
   "note": "Exact arithmetic; any iteration order of the hash map."
  },
  {
   "property": "C26",
   "status": "proved",
   "theorems": [
    "gx_strongest",
    "gx_overfull",
    "gx_until_partial"
   ],
   "note": "std::partial_sort by its standard guarantee. For removePointsFromFullestCellsUntilSize see also C64."
  },
  {
   "property": "C27",
   "status": "partial",
   "theorems": [
    "sx_erase_vector",
    "sx_without",
    "sx_erase_vector_bad",
    "sx_erase_container",
    "sx_erase_container_bad",
    "sx_erase_container_refuted"
   ],
   "note": "eraseIndicesFromVector proved for every duplicate-free list in any order. The matrix overload of eraseIndicesFromContainer calls back() of an empty index list and aborts on unsorted lists (sx_erase_container_refuted); for non-empty strictly increasing lists it is proved."
  },
  {
   "property": "C28",
   "status": "proved",
   "theorems": [
    "sx_median",
    "sx_median_unique",
    "sx_mean",
    "sx_count"
   ],
   "note": "Exact arithmetic; std::nth_element by its standard guarantee."
  },
  {
   "property": "C29",
   "status": "partial",
   "theorems": [
    "ax_accumulator_exact_partial",
    "ax_accumulator_fails_iff",
    "ax_accumulator_overflow_refuted",
    "ax_rolling_mean_empty_refuted"
   ],
   "note": "Exact (in exact arithmetic) for fewer than 2^31 samples; the int counters overflow at sample 2^31, and the rolling mean of no samples is 0/0."
  },
  {
   "property": "C30",
   "status": "proved",
   "theorems": [
    "rx_handles_iff",
    "rx_statistics_of_own_samples",
    "rx_sample_isolated",
    "rx_reset_starts_afresh",
    "rx_get_tag",
    "rx_stale_collector_refuted"
   ],
   "note": "Also recorded: a collector created before Reset keeps feeding the old accumulator."
  },
  {
   "property": "C31",
   "status": "partial",
   "theorems": [
    "dx_sse_distance_exact_partial",
    "dx_neon_distance_exact_partial",
    "dx_sse_agrees_with_neon_partial",
    "dx_sse_distance_wraps_refuted",
    "dx_distance_ignores_tail_refuted",
    "dx_short_descriptor_out_of_bounds_refuted"
   ],
   "note": "Exact for multiples of 16 bytes from 16 to 496 (x86) or to 2^25 words (ARM); wraps to 0 at 512 bytes, ignores trailing bytes, reads past short descriptors."
  },
  {
   "property": "C32",
   "status": "proved",
   "theorems": [
    "dx_mean_majority",
    "dx_mean_minimises_distance",
    "dx_median_minimises_distance",
    "dx_median_not_closest_to_mean_refuted",
    "dx_bit_access"
   ],
   "note": "The median is not in general the descriptor closest to the rounded mean (refuted)."
  },
  {
   "property": "C33",
   "status": "partial",
   "theorems": [
    "cx_refines_partial",
    "cx_clone_equal",
    "cx_equal_answer",
    "cx_clone_shares_pixels_refuted",
    "cx_assign_aliases_refuted",
    "cx_equal_order_refuted"
   ],
   "note": "Proved for every history without plain group assignment and without in-place pixel writes. Refuted: clones share image pixels, assignment shares all channels, comparison of differently typed channels aborts or answers depending on hash order."
  },
  {
   "property": "C34",
   "status": "partial",
   "theorems": [
    "cx_compare_deadlock_refuted",
    "cx_ordered_no_deadlock_partial",
    "cx_mutual_exclusion"
   ],
   "note": "Refuted: opposite-order comparisons deadlock. Proved for every interleaving when all comparisons respect one order."
  },
  {
   "property": "C35",
   "status": "proved",
   "theorems": [
    "vx_extend",
    "vx_extend_keypoints",
    "vx_extend_descriptors",
    "vx_history_prefix",
    "vx_batch_aligned"
   ],
   "note": ""
  },
  {
   "property": "C36",
   "status": "partial",
   "theorems": [
    "vx_discard_partial",
    "vx_keep",
    "vx_discard_positions_refuted",
    "vx_discard_blocks_refuted"
   ],
   "note": "Proved for the six channels the function handles and at most one descriptor block. Refuted: 3D positions and time offsets are not erased; several descriptor blocks abort."
  },
  {
   "property": "C37",
   "status": "partial",
   "theorems": [
    "vx_block_lookup",
    "vx_descriptors",
    "vx_num_descriptors",
    "vx_type_range",
    "vx_cell_of_type",
    "vx_types_partition",
    "vx_num_of_type",
    "vx_duplicate_type_refuted"
   ],
   "note": "Index lookup fully proved. Partition by type needs distinct types: two blocks of one type (accepted by extendDescriptors) hide the second."
  },
  {
   "property": "C38",
   "status": "partial",
   "theorems": [
    "qx_max_timestamp",
    "qx_max_without_frames",
    "qx_min_timestamp_partial",
    "qx_min_without_frames_refuted",
    "qx_min_invalid",
    "qx_all_set"
   ],
   "note": "exact for both; the minimum does not fail when no frame is set (returns INT64_MAX)"
  },
  {
   "property": "C39",
   "status": "partial",
   "theorems": [
    "qx_camera_index_partial",
    "qx_undistorted_index_refuted",
    "qx_swap_refuted",
    "qx_set_id_refuted",
    "qx_clone_ids"
   ],
   "note": "holds as long as ids are distinct after every step; refuted for cloneRigWithoutDistortion, exchanging two cameras with setCamera, and setId on a camera of a rig"
  },
  {
   "property": "C40",
   "status": "partial",
   "theorems": [
    "kx_matches_partial",
    "kx_succeeds",
    "kx_new_ids",
    "kx_tracks_partial",
    "kx_reset_refuted",
    "kx_overflow_refuted",
    "kx_wrap_refuted"
   ],
   "note": "track ids are exactly the connected components of all applied matches, for histories with at most 2^31 matches and no resetIdProvider; refuted after a reset and after 2^31 tracks (size_t id narrowed to int)"
  },
  {
   "property": "C41",
   "status": "proved",
   "theorems": [
    "yx_candidates",
    "yx_candidates_total"
   ],
   "note": "std::sort is any function that sorts; the limit is floor(n * ratio) over exact rationals instead of double"
  },
  {
   "property": "C42",
   "status": "partial",
   "theorems": [
    "mx_one_to_one",
    "mx_threshold_partial",
    "mx_threshold_refuted",
    "mx_first_call"
   ],
   "note": "one-to-one and window parts hold always; the threshold part is refuted when the process has matched descriptors of another size before (static variable keeps the first size), and proved otherwise"
  },
  {
   "property": "C43",
   "status": "partial",
   "theorems": [
    "mx_decision_order_partial",
    "mx_decision_order_refuted"
   ],
   "note": "refuted: distances 110 then 100 pass, 100 then 110 fail, the order of equal rows being up to std::sort; best candidate distance never depends on the order, the decision does not if all candidates qualify"
  },
  {
   "property": "C44",
   "status": "partial",
   "theorems": [
    "mx_window_rows_partial",
    "mx_window_defined",
    "mx_last_row_refuted"
   ],
   "note": "exact set of rows proved; refuted for the last image row, whose keypoints are never returned"
  },
  {
   "property": "C45",
   "status": "proved",
   "theorems": [
    "px_project_back_projection",
    "px_back_project_projection",
    "px_status",
    "px_least_depth",
    "px_finite",
    "px_jacobian_point",
    "px_jacobian_intrinsics",
    "px_radtan_jacobians",
    "px_equi_jacobians",
    "px_no_distortion",
    "px_fisheye"
   ],
   "note": "Real arithmetic; lens given by its three functions, instantiated with the lens models of C47."
  },
  {
   "property": "C46",
   "status": "partial",
   "theorems": [
    "ux_project_back_projection_partial",
    "ux_project_back_projection_refuted",
    "ux_back_project_projection",
    "ux_status",
    "ux_least_depth",
    "ux_jacobian_point",
    "ux_jacobian_intrinsics",
    "ux_radtan_jacobians"
   ],
   "note": "Exact strictly inside the liftable region and for xi <= 1; on its edge (xi > 1) backProject3 and isLiftable report success but the ray has no valid projection (refuted). Jacobians with respect to point, intrinsics and distortion coefficients proved for every valid projection."
  },
  {
   "property": "C47",
   "status": "partial",
   "theorems": [
    "lx_null",
    "lx_radtan_jacobians",
    "lx_jacobian_unique",
    "lx_newton_step",
    "lx_radtan_undistort_partial",
    "lx_radtan_zero",
    "lx_radtan_centre",
    "lx_equi_jacobians_partial",
    "lx_equi_jacobian_refuted",
    "lx_equi_jacobian_centre",
    "lx_equi_param_centre",
    "lx_fisheye_jacobian_partial",
    "lx_fisheye_params_partial",
    "lx_fisheye_params_refuted",
    "lx_fisheye_params_inner",
    "lx_fisheye_inverse_partial",
    "lx_fisheye_inverse_back_partial",
    "lx_fisheye_inverse_zero",
    "lx_fisheye_inverse_refuted",
    "lx_fisheye_inverse_near_fails"
   ],
   "note": "Real arithmetic. All Jacobians of the radial-tangential model are the derivatives everywhere; equidistant beyond 1e-8 from the centre (at the centre the code returns zero, refuted); fisheye off the switching circle, its parameter Jacobian only outside the inner disc (inside, the coordinates are missing as factors, refuted). Fisheye inverse exact up to 89 degrees outside the inner disc, refuted beyond and inside. Newton inverse: step and tolerance guarantee here; convergence is C130 and C131."
  },
  {
   "property": "C48",
   "status": "partial",
   "theorems": [
    "zx_pinhole_invariant",
    "zx_unified_invariant",
    "zx_pinhole_status_partial",
    "zx_status_refuted",
    "zx_jacobian_partial",
    "zx_jacobian_negated",
    "zx_jacobian_refuted",
    "zx_back_project4"
   ],
   "note": "Keypoint invariant for pinhole and unified cameras; the status is not (minimum depth applied to the unnormalised coordinates); the Jacobian is right for a positive fourth coordinate and has the wrong sign for a negative one."
  },
  {
   "property": "C49",
   "status": "partial",
   "theorems": [
    "trx_too_few",
    "trx_linear_exact_partial",
    "trx_multi_cam_exact_partial",
    "trx_bearing_exact_partial",
    "trx_linear_exact_conditioned",
    "trx_multi_cam_exact_conditioned",
    "trx_bearing_exact_conditioned",
    "trx_bearing_unobservable",
    "trx_linear_unobservable_partial",
    "trx_multi_cam_unobservable_partial",
    "trx_linear_unobservable_refuted",
    "trx_track_exact_partial",
    "trx_track_refuted",
    "trx_fast_track_refuted",
    "trx_newton_exact_partial",
    "trx_newton_refuted",
    "trx_newton_unobservable_refuted"
   ],
   "note": "Exact point on noise-free input when the status is Successful, and success for well-conditioned views. Refuted: rank minus number of views wraps around so parallel rays can be reported Successful; the track variant uses the first camera's extrinsics for all observations; the fast track variant never advances its column index; the Gauss-Newton variant anchors at the wrong vector and never reports Unobservable."
  },
  {
   "property": "C50",
   "status": "proved",
   "theorems": [
    "ex_corner_position",
    "ex_corner_disjoint",
    "ex_corner_cover",
    "ex_detection",
    "ex_correspondence",
    "ex_negative_id"
   ],
   "note": "Includes the 32-bit index arithmetic; ex_negative_id shows why ids must not be negative (the range check has no lower bound)."
  },
  {
   "property": "C51",
   "status": "partial",
   "theorems": [
    "ix_intersection_partial",
    "ix_touch_refuted",
    "ix_equal_refuted",
    "jx_exact",
    "jx_defined"
   ],
   "note": "The fit is proved exact for all point sets on a circle that are not collinear, and undefined exactly for collinear ones. The intersection appends exactly the common points of circles with different centres, except when the half chord is below 1e-10, where one point off both circles is returned (refuted); equal circles give two NaN points (refuted)."
  },
  {
   "property": "C52",
   "status": "partial",
   "theorems": [
    "fx_prime_test_exact",
    "fx_next_prime",
    "fx_reorder_permutation",
    "fx_reorder_permutation_partial",
    "fx_reorder_single_refuted",
    "fx_reorder_single"
   ],
   "note": "Permutation for every number of steps from 2 to 30000 without further hypotheses, and for more as long as (p - 1) * (n / 2) fits into int (p the smallest prime above n); refuted for a single step (reads before the vector)."
  },
  {
   "property": "C53",
   "status": "partial",
   "theorems": [
    "rax_inliers_partial",
    "rax_ransac_refuted",
    "rax_multi_pose_refuted",
    "rax_best_refuted",
    "rax_stop_refuted",
    "rax_stop_all",
    "rax_outlier_continues"
   ],
   "note": "Refuted: every admissible call overfills a 3x3 comma initialiser in its first iteration; even with a working fit, rotation, translation and outliers are never written, the inliers are those of the last model instead of the best, and the stopping ratio is an integer division. Proved: the returned inliers are exactly the pairs that agree with one fitted model."
  },
  {
   "property": "C54",
   "status": "partial",
   "theorems": [
    "bx_diagonal_partial",
    "bx_diagonal_refuted",
    "bx_diagonal_negative",
    "bx_empty"
   ],
   "note": "Proved when some keypoint has a positive u and some a positive v. Refuted for negative coordinates: the maximum starts at the smallest positive double."
  },
  {
   "property": "C55",
   "status": "partial",
   "theorems": [
    "wx_text_reads_back_partial",
    "wx_text_reads_back_refuted",
    "wx_text_gap",
    "wx_text_lenient",
    "wx_text_injective"
   ],
   "note": "All 64-bit times except -999999999..-100000000, which print as '-s NNNNNNNNNns' (seconds field without digits). Texts are still pairwise different."
  },
  {
   "property": "C56",
   "status": "partial",
   "theorems": [
    "nx_unit",
    "nx_project_back_projection_partial",
    "nx_least_depth",
    "nx_project_back_projection_refuted",
    "nx_wrong_above_pi",
    "nx_pole",
    "nx_max_delay_rows",
    "nx_max_delay_columns",
    "nx_max_delay_lidar_refuted"
   ],
   "note": "Proved for images covering the full circle with a horizontal centre in [-pi, pi) and rays not straight up or down, at any distance above 0.01. Refuted: with centre pi column 0 comes back as column width, outside of the image; above pi whole ranges are shifted by the width. The maximal rolling shutter delay covers every keypoint for row cameras, but not for the lidar, which reads columns and does not override it."
  },
  {
   "property": "C57",
   "status": "partial",
   "theorems": [
    "ox_partition_partial",
    "ox_nothing_lost",
    "ox_nonempty_output_aborts",
    "ox_partition_refuted"
   ],
   "note": "Proved for empty output lists and all RANSAC results. Refuted for output lists with earlier content: they are not cleared and the size check aborts."
  },
  {
   "property": "C58",
   "status": "proved",
   "theorems": [
    "nw_no_lost_wakeup",
    "nw_false_means_shutdown"
   ],
   "note": ""
  },
  {
   "property": "C59",
   "status": "partial",
   "theorems": [
    "sr_int_roundtrip_partial",
    "sr_uint64_throws",
    "sr_uint64_refuted",
    "sr_float_close_partial",
    "sr_float_refuted",
    "sr_scalar_buffer_roundtrip"
   ],
   "note": "Buffers: exact. Strings: exact for integers within int64; unsigned 64-bit values from 2^63 throw, floating-point values lose everything below 1e-6 (refuted)."
  },
  {
   "property": "C60",
   "status": "partial",
   "theorems": [
    "hx_garbage_refuted",
    "hx_garbage_partial",
    "hx_accepts"
   ],
   "note": "Refuted: \"0x\", \"-1\" and \"1g\" are accepted for a byte. Pairs of two non-digits throw."
  },
  {
   "property": "C61",
   "status": "proved",
   "theorems": [
    "hx_order",
    "hx_words"
   ],
   "note": ""
  },
  {
   "property": "C62",
   "status": "proved",
   "theorems": [
    "sx_keep_n"
   ],
   "note": "std::partial_sort by its standard guarantee."
  },
  {
   "property": "C63",
   "status": "proved",
   "theorems": [
    "sx_draw_n"
   ],
   "note": "Every stream of random indices; termination (the stream must contain n distinct values) is a hypothesis."
  },
  {
   "property": "C64",
   "status": "partial",
   "theorems": [
    "gx_until_partial",
    "gx_until_aborts",
    "gx_until_refuted"
   ],
   "note": "Holds iff n is at least the number of occupied cells (or nothing has to be removed); otherwise the call aborts in CHECK_GT(max_points_per_cell, 0)."
  },
  {
   "property": "C65",
   "status": "proved",
   "theorems": [
    "tx_timer_contributes_its_laps"
   ],
   "note": ""
  },
  {
   "property": "C66",
   "status": "partial",
   "theorems": [
    "vx_clear_partial",
    "vx_clear_refuted"
   ],
   "note": "Refuted for two or more descriptor blocks: only block 0 is cleared."
  },
  {
   "property": "C67",
   "status": "partial",
   "theorems": [
    "vx_select_partial",
    "vx_select_past_end",
    "vx_select_refuted"
   ],
   "note": "Proved for valid indices. Refuted: CHECK_LE accepts the index one past the end."
  },
  {
   "property": "C68",
   "status": "partial",
   "theorems": [
    "yx_flow_matches_partial",
    "yx_border_refuted"
   ],
   "note": "integer coordinates; refuted when the configured border is wider than the image (unsigned difference wraps around)"
  },
  {
   "property": "C69",
   "status": "proved",
   "theorems": [
    "yx_history"
   ],
   "note": "contracts of matcher, prediction, optical flow and extraction are hypotheses (record sane)"
  },
  {
   "property": "C70",
   "status": "partial",
   "theorems": [
    "mx_no_abort_partial",
    "mx_complement_abort_refuted",
    "mx_sizes_abort_refuted"
   ],
   "note": "refuted for complementary descriptors in one window and for a larger descriptor size after a smaller one; proved when every distance is below the descriptor size"
  },
  {
   "property": "C71",
   "status": "proved",
   "theorems": [
    "mx_best_kept"
   ],
   "note": "the selection by the search is the model function attempt"
  },
  {
   "property": "C72",
   "status": "proved",
   "theorems": [
    "mx_distinctive"
   ],
   "note": "for calls whose descriptor size is the one remembered by the process"
  },
  {
   "property": "C73",
   "status": "partial",
   "theorems": [
    "nx_external_refuted"
   ],
   "note": "Refuted for the lidar, whose projection reads the members only. The pinhole and unified camera models take the intrinsics as an argument, so the selection between members and external intrinsics is not modelled for them."
  },
  {
   "property": "C74",
   "status": "partial",
   "theorems": [
    "ex_observed",
    "ex_corner_by_id_partial",
    "ex_corner_by_id_refuted",
    "ex_all_observed"
   ],
   "note": "getObservedCornerById compares the id with the number of observed corners and aborts for larger ids, also of observed corners (refuted); for smaller ids it is proved correct."
  },
  {
   "property": "C75",
   "status": "partial",
   "theorems": [
    "ex_grid_roundtrip",
    "ex_index_roundtrip",
    "ex_grid_order_refuted",
    "ex_grid_order_abort_refuted",
    "ex_extent"
   ],
   "note": "pointToGridCoordinates returns (column, row), the other function takes (row, column): inverse only after swapping; used in order another point or an abort results (refuted). Width and height proved."
  },
  {
   "property": "C76",
   "status": "proved",
   "theorems": [
    "trx_linear_least_squares",
    "trx_multi_cam_least_squares",
    "trx_bearing_least_squares",
    "trx_variants_agree",
    "trx_line_distance"
   ],
   "note": "Exact arithmetic; column-pivoted QR modelled as pivoted orthogonalisation."
  },
  {
   "property": "C77",
   "status": "proved",
   "theorems": [
    "trx_newton_jacobian",
    "trx_newton_step"
   ],
   "note": "Derivative in the sense of Coquelicot's is_derive, all three parameters."
  },
  {
   "property": "C78",
   "status": "proved",
   "theorems": [
    "rax_pixel_threshold",
    "rax_rig_threshold",
    "rax_rig_single"
   ],
   "note": "Real arithmetic."
  },
  {
   "property": "C79",
   "status": "partial",
   "theorems": [
    "rax_seed_refuted",
    "rax_same_second_refuted",
    "rax_state_determines"
   ],
   "note": "Refuted: the flag acts the other way round; with random_seed false the outside seed has no effect and all iterations within a second draw the same sample. Proved: with random_seed true the generator state alone decides."
  },
  {
   "property": "C80",
   "status": "partial",
   "theorems": [
    "drx_safe_partial",
    "drx_copy",
    "drx_assign",
    "drx_independent",
    "drx_write",
    "drx_copy_uninitialised_refuted",
    "drx_release_refuted",
    "drx_equal_null",
    "drx_release",
    "drx_set_data_leak_refuted",
    "drx_alias_refuted",
    "drx_assign_empty_not_equal_refuted"
   ],
   "note": "Proved for histories with C++ object lifetimes, views on external memory only and without Release/set_data on owners, for any definite value of the uninitialised owned_ member. Refuted: the copy constructor reads owned_ uninitialised; Release keeps the size (null access later); set_data leaks; views on an owner's buffer lead to use after free; assigning an empty descriptor gives unequal objects."
  },
  {
   "property": "C81",
   "status": "partial",
   "theorems": [
    "fnx_flip_random",
    "fnx_flip_everything_refuted"
   ],
   "note": "Exactly n bits are flipped for every shuffle and every n below the number of bits; n equal to the number of bits is rejected although the message says 'more than everything'."
  },
  {
   "property": "C82",
   "status": "partial",
   "theorems": [
    "prx_predict",
    "prx_empty_refuted",
    "prx_identity",
    "prx_identity_all_succeed_refuted",
    "prx_compose",
    "prx_inverse",
    "prx_inverse_unified"
   ],
   "note": "Proved for frames with keypoints. Refuted: with no keypoints the output matrix keeps its old contents; the identity branch does not return, so keypoints outside of the image fail."
  },
  {
   "property": "C83",
   "status": "partial",
   "theorems": [
    "brx_bearings",
    "brx_bearing_pinhole",
    "brx_failed_rays_refuted"
   ],
   "note": "Order, length, normalization and projection proved; the success flags are dropped, so keypoints without a ray are passed on."
  },
  {
   "property": "C84",
   "status": "partial",
   "theorems": [
    "inx_additional_partial",
    "inx_empty",
    "inx_empty_refuses",
    "inx_refuses",
    "inx_additional_twice",
    "inx_cleared_refuted",
    "inx_descriptor_size_refuted",
    "inx_two_blocks_refuted"
   ],
   "note": "Proved for frames with one block of descriptors and descriptors of equal size. Refuted otherwise: the code does not compare descriptor sizes (uninitialised bytes or a write out of bounds, in particular after clearKeypointChannels) and uses the number of all keypoints for the first descriptor block."
  },
  {
   "property": "C85",
   "status": "proved",
   "theorems": [
    "ymx_round_trip",
    "ymx_empty_refuted"
   ],
   "note": "The codec of yaml-cpp for numbers is a parameter; f is the identity if its texts have enough digits. Matrices without coefficients abort in encode (ymx_empty_refuted), they are excluded in the statement."
  },
  {
   "property": "C86",
   "status": "partial",
   "theorems": [
    "ymx_accepts_partial",
    "ymx_sound_partial",
    "ymx_wrong_size",
    "ymx_too_large",
    "ymx_wrong_length",
    "ymx_column_refuted",
    "ymx_long_rows_refuted",
    "ymx_data_ignored_refuted"
   ],
   "note": "The length check for sequences inside a linear array is inverted: a column of one-element rows aborts, longer rows are truncated silently, empty ones are read beyond the end. Wrong row lengths abort instead of returning false. 0 x 0 documents accept any data."
  },
  {
   "property": "C87",
   "status": "partial",
   "theorems": [
    "udx_rectangles",
    "udx_matrix_partial",
    "udx_pinhole_matrix",
    "udx_same_size_refuted",
    "udx_wide_angle_refuted",
    "udx_float_size_refuted"
   ],
   "note": "Rectangles and interpolation proved for all lens models whose inner rectangle is not empty. Refuted: the grid reaches one pixel beyond the image, so an undistorted camera changes its matrix and alpha = 0 has invalid pixels; more than 180 degrees give a negative focal length; the output width is computed in double for the matrix and in float for the camera (447 and 448 for 640 * 0.7f)."
  },
  {
   "property": "C88",
   "status": "partial",
   "theorems": [
    "umx_position",
    "umx_identity",
    "umx_identity_unified_partial",
    "umx_resize",
    "umx_fixed_partial",
    "umx_identity_map",
    "umx_wrap_refuted",
    "umx_far_refuted",
    "umx_wide_angle_refuted",
    "umx_factories"
   ],
   "note": "Proved for rays to the front and positions within 16 bits. Refuted: positions outside of 16 bits wrap around into the image; rays to the back of a unified output camera are mirrored by the division by a negative depth."
  },
  {
   "property": "C89",
   "status": "proved",
   "theorems": [
    "cvx_frame_independent",
    "cvx_covariance",
    "cvx_total_variance",
    "cvx_compose",
    "cvx_inverse"
   ],
   "note": "All statements for exact reals and unit quaternions; the lever arm of the translation of T_B_A is not applied by the code (name: rotate)."
  },
  {
   "property": "C90",
   "status": "partial",
   "theorems": [
    "sgx_camera_round_trip",
    "sgx_mask_refuted"
   ],
   "note": "Proved: the round trip, exact for every member but the mask, into any object of the class and with the factory. Refuted: a mask of the object that is read into stays although the size of the image changes."
  },
  {
   "property": "C91",
   "status": "partial",
   "theorems": [
    "sgx_rig_round_trip",
    "sgx_rig_again_refuted",
    "sgx_rig_empty_refuted"
   ],
   "note": "Proved: the round trip of rigs with cameras into new rigs, and the index. Refuted: reading into a rig with cameras appends (a rig that reads its own document has every camera twice); the document of a rig without cameras is refused."
  },
  {
   "property": "C92",
   "status": "partial",
   "theorems": [
    "sgx_camera_sound",
    "sgx_create_sound",
    "sgx_camera_returns",
    "sgx_rig_sound",
    "sgx_bad_id_refuted",
    "sgx_class_refuted",
    "sgx_refusal_changes_refuted",
    "sgx_none_refuted",
    "sgx_rig_refusal_refuted",
    "sgx_twins_refuted",
    "sgx_rig_abort_refuted"
   ],
   "note": "Proved: what deserialize accepts is valid and is what the document says; with an id in order and convertible vectors it returns. Refuted: malformed ids, transformations and covariances end the program or throw; a camera object takes the type of another class; refused documents leave an invalid camera, or cameras that are not in the index; two cameras with one id are accepted; a distortion none without parameters is refused."
  },
  {
   "property": "C93",
   "status": "proved",
   "theorems": [
    "nlx_divergence",
    "nlx_conserves",
    "nlx_bounded",
    "nlx_range",
    "nlx_limit",
    "nlx_conductivity",
    "nlx_flat"
   ],
   "note": "Real arithmetic without rounding."
  },
  {
   "property": "C94",
   "status": "partial",
   "theorems": [
    "kpx_percentile",
    "kpx_above",
    "kpx_flat_refuted",
    "kpx_few_edges_refuted",
    "kpx_no_bins_refuted",
    "kpx_large_refuted"
   ],
   "note": "Proved for up to 2^24 pixels, positive if the fraction is at least one pixel. Refuted otherwise: a flat image or one with few edges gives 0, by which the conductivities divide; beyond 2^24 pixels the float counters stop."
  },
  {
   "property": "C95",
   "status": "partial",
   "theorems": [
    "ftx_number",
    "ftx_cycle",
    "ftx_process",
    "ftx_conserves",
    "ftx_rates",
    "ftx_stable",
    "ftx_levels",
    "ftx_sublevels_refuted",
    "ftx_short_refuted"
   ],
   "note": "Proved without reordering for at least one step, with reordering for 2 to 30000 steps, and for levels that are far enough apart (the default options are). Refuted: twelve sublevels with the default soffset give a single step, whose reordering is undefined; very short cycles have no step."
  },
  {
   "property": "C96",
   "status": "partial",
   "theorems": [
    "aox_step",
    "aox_unique",
    "aox_conserves",
    "aox_range",
    "aox_wide_refuted",
    "aox_tall_refuted"
   ],
   "note": "Proved for square images. Refuted for all others: the auxiliary image Ltx_ has the wrong orientation, so wider images are written out of bounds and taller ones throw."
  },
  {
   "property": "C97",
   "status": "partial",
   "theorems": [
    "xtx_sound",
    "xtx_complete",
    "xtx_refined_inside",
    "xtx_refined_stationary",
    "xtx_refined_removed",
    "xtx_separate_refuted",
    "xtx_border_refuted",
    "xtx_stale_refuted"
   ],
   "note": "Soundness, completeness up to suppression and the refinement are proved. Refuted: keypoints of adjacent levels can stay nearer than the scale (only the first near keypoint is compared); the check of the border is overwritten; keypoints already in the vector stay."
  },
  {
   "property": "C98",
   "status": "partial",
   "theorems": [
    "orx_longest",
    "orx_contrast",
    "orx_samples",
    "orx_reads",
    "orx_windows",
    "orx_axis_refuted"
   ],
   "note": "Proved when no gradient points exactly along the x axis. Refuted in general: a gradient whose angle is exactly 0 is in no window, so the strongest gradients can be ignored."
  },
  {
   "property": "C99",
   "status": "partial",
   "theorems": [
    "sux_unit",
    "sux_none",
    "sux_contrast",
    "sux_reads",
    "sux_affine",
    "sux_weights",
    "sux_border",
    "sux_gauge",
    "sux_transposed",
    "sux_samples",
    "sux_rotation",
    "sux_flat_refuted",
    "sux_range_refuted",
    "sux_rotated_refuted",
    "sux_centre_refuted"
   ],
   "note": "Proved for all twelve functions, over real numbers; the invariance under rotation for derivatives that are linear around the keypoint, with all samples in the image. Refuted: flat patches give NaN; below one half of a pixel the interpolation extrapolates and leaves the range of the pixels; rotated M-SURF descriptors do not interpolate there and are not exact for affine images; the weights of the cells of M-SURF are centred one sample beside the centre."
  }
 ]
}
