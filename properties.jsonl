{"id": "C01", "title": "Saturation is exact and persists to the end of the ramp", "statement": "After flag_saturated_pixels, a group of a pixel carries SATURATED if and only if some pixel within n_pix_grow_sat (Chebyshev distance, same integration) already carried SATURATED in that group on input, or was at or above its effective saturation threshold in that group or any earlier group of the same integration. The effective threshold of a pixel with no usable reference value is atod_limit+1. In particular flagging never stops once started and never leaks from one integration into the next.", "quantifier": "every number of integrations and groups, every image shape at least 2*n in each dimension, every grow radius n, all data (including NaN, infinities), all input DQ words", "why_tests_cant": "the statement couples an unbounded ramp history with a two-dimensional dilation; tests exercise a few 5x5..20x20 frames with one saturated pixel", "anchors": ["src/stcal/saturation/saturation.py: flag_saturated_pixels", "src/stcal/saturation/saturation.py: _adjacent_pixels"]}
{"id": "C02", "title": "Neighbour growing is exactly a Chebyshev dilation", "statement": "The neighbour-growing step returns a mask that is set at a pixel if and only if some flagged pixel lies within n rows and n columns of it (and inside the image); nothing wraps around the edges and the corners and borders are treated like the interior. This holds when both image dimensions are at least 2n; when a dimension is smaller than that the call can fail instead of returning a mask.", "quantifier": "every image shape, every radius n >= 1, every mask", "why_tests_cant": "the implementation treats interior and borders by two different mechanisms; equivalence is over all masks (2^pixels) and all shapes", "anchors": ["src/stcal/saturation/saturation.py: _adjacent_pixels"]}
{"id": "C03", "title": "Saturation step only ever adds SATURATED, AD_FLOOR and DO_NOT_USE", "statement": "Every DQ bit set in the input group DQ is still set in the output, and the only bits the step can add are SATURATED, AD_FLOOR and DO_NOT_USE. The output pixel DQ is the input pixel DQ combined with the (NaN-completed) reference DQ.", "quantifier": "all inputs, all read patterns, with or without ZEROFRAME", "why_tests_cant": "a per-bit monotonicity statement over all possible DQ words and data values", "anchors": ["src/stcal/saturation/saturation.py: flag_saturated_pixels"]}
{"id": "C04", "title": "A/D floor flags are per group and never spread", "statement": "A group of a pixel carries AD_FLOOR after the step if and only if it carried it before or its value in that very group is zero or negative; it is never propagated to later groups, other integrations or neighbouring pixels, and every group newly flagged AD_FLOOR is also DO_NOT_USE.", "quantifier": "all inputs", "why_tests_cant": "needs all ramps and all neighbourhoods, including frames where saturation growth is active", "anchors": ["src/stcal/saturation/saturation.py: flag_saturated_pixels"]}
{"id": "C05", "title": "Pixels excluded from the saturation check never seed saturation", "statement": "A pixel marked NO_SAT_CHECK in the reference DQ, or whose reference threshold is NaN, and whose data never exceed the A/D limit, is not flagged SATURATED unless it already was, or some other pixel in its neighbourhood qualifies; it is reported NO_SAT_CHECK in the output pixel DQ when its threshold is NaN.", "quantifier": "all inputs whose data for that pixel stay below atod_limit+1", "why_tests_cant": "absence of flagging over every ramp and neighbourhood cannot be sampled", "anchors": ["src/stcal/saturation/saturation.py: flag_saturated_pixels"]}
{"id": "C06", "title": "Partially saturated groups of averaged reads are found exactly", "statement": "With a read pattern, a group (other than the last) additionally receives DO_NOT_USE if and only if some pixel within the grow radius has, in that group, a value at or above the threshold scaled by (mean read time / last read time) of the group, is neither SATURATED nor DO_NOT_USE there, and is SATURATED in the next group (plus the documented special rule for the second group). With no read pattern no such flag is ever set.", "quantifier": "all inputs and all read patterns", "why_tests_cant": "the backward pass reads flags written by the forward pass; only a proof covers every combination", "anchors": ["src/stcal/saturation/saturation.py: flag_saturated_pixels"]}
{"id": "C07", "title": "The worker count is always usable", "statement": "The number of worker processes is never more than the number of chunks or the number of cores available, and is at least 1 whenever there is at least one chunk and one core, unless the user literally asks for zero. Unrecognised requests, 'none' and 'one' give exactly 1.", "quantifier": "every request string, every chunk count, every core count", "why_tests_cant": "strings, chunk counts and core counts are unbounded; zero and degenerate divisions are the interesting corner", "anchors": ["src/stcal/multiprocessing.py: compute_num_cores"]}
{"id": "C08", "title": "Splitting an exposure over processes does not change the ramp fit", "statement": "Splitting the rows of an exposure into slices for multiprocessing, fitting each slice and reassembling the pieces gives, for every pixel, exactly the result of fitting that pixel's row in one process: slices are contiguous, non-overlapping, cover every row once, differ in height by at most one row, and land back in their original position.", "quantifier": "every number of rows and every number of slices between 1 and the number of rows, every per-row fitting function", "why_tests_cant": "partition and reassembly indices must agree for all (rows, slices) pairs; tests check a handful", "anchors": ["src/stcal/ramp_fitting/ols_fit.py: rows_per_slice", "src/stcal/ramp_fitting/ols_fit.py: slice_ramp_data", "src/stcal/ramp_fitting/ols_fit.py: assemble_pool_results", "src/stcal/ramp_fitting/ols_fit.py: get_slice", "src/stcal/ramp_fitting/ols_fit.py: ols_ramp_fit_multi"]}
{"id": "C09", "title": "Dark subtraction uses the right dark group for every science group", "statement": "When science and dark share nframes and groupgap, group g of integration i of the output is the science value minus dark group g of dark integration i (or of the last dark integration once these are exhausted or when the exposure segment does not start at integration 1), with NaNs in the dark treated as 0; the science input is not modified.", "quantifier": "all shapes, all 3-D and 4-D darks", "why_tests_cant": "index selection over all sizes and integration offsets", "anchors": ["src/stcal/dark_current/dark_sub.py: do_correction_data", "src/stcal/dark_current/dark_sub.py: subtract_dark"]}
{"id": "C10", "title": "Averaged darks match the science sampling", "statement": "When the dark must be averaged to the science readout, science group g is corrected with the mean of the nframes consecutive dark planes starting at g*(nframes+groupgap); it exists for every science group exactly when the dark holds enough planes.", "quantifier": "all nframes, groupgap, group counts", "why_tests_cant": "unbounded arithmetic on strides and lengths", "anchors": ["src/stcal/dark_current/dark_sub.py: average_dark_frames_3d", "src/stcal/dark_current/dark_sub.py: average_dark_frames_4d"]}
{"id": "C11", "title": "A skipped dark leaves science untouched, an applied dark only adds DQ bits", "statement": "If the dark is coarser than the science data the step is reported skipped and the returned science data, group DQ and pixel DQ equal the input. Otherwise the output pixel DQ is the input pixel DQ OR-ed with the dark DQ (over all dark integrations), so no flag is lost, and group DQ is unchanged.", "quantifier": "all inputs", "why_tests_cant": "skip/apply decision and flag merging over all configurations", "anchors": ["src/stcal/dark_current/dark_sub.py: do_correction_data", "src/stcal/dark_current/dark_sub.py: subtract_dark"]}
{"id": "C12", "title": "Linearity correction evaluates the reference polynomial", "statement": "For every unflagged pixel with usable coefficients the corrected value of an unsaturated sample x is c0 + c1*x + ... + cn*x^n, for any number of coefficients; samples flagged SATURATED are returned unchanged.", "quantifier": "any coefficient count, any sample", "why_tests_cant": "polynomial identity for all degrees and values", "anchors": ["src/stcal/linearity/linearity.py: linearity_correction", "src/stcal/linearity/linearity.py: apply_polynomial"]}
{"id": "C13", "title": "Pixels without a usable correction are passed through and flagged", "statement": "A pixel whose coefficients contain NaN, whose linear coefficient is zero, or which the reference marks NO_LIN_CORR leaves the linearity step with its data unchanged and with NO_LIN_CORR in the pixel DQ; no other pixel gains NO_LIN_CORR except from the reference DQ, and no DQ bit is ever cleared.", "quantifier": "all coefficient cubes, all DQ arrays", "why_tests_cant": "must hold for all combinations of NaN/zero/flag across coefficient planes", "anchors": ["src/stcal/linearity/linearity.py: linearity_correction", "src/stcal/linearity/linearity.py: correct_for_flag", "src/stcal/linearity/linearity.py: correct_for_NaN", "src/stcal/linearity/linearity.py: correct_for_zero"]}
{"id": "C14", "title": "Linearity result does not depend on the tile height", "statement": "Processing the detector in row tiles gives each pixel the value that processing the whole frame at once would: every row is processed exactly once, whatever the number of rows.", "quantifier": "every number of rows and every positive tile height", "why_tests_cant": "tiling boundary conditions over all sizes", "anchors": ["src/stcal/linearity/linearity.py: linearity_correction", "src/stcal/linearity/linearity.py: _linearity_correction_tile"]}
{"id": "C15", "title": "The on-disk median equals the in-memory median", "statement": "For any stack of equal-shape images, any buffer size, the median image computed through the disk-backed section files equals the median image of the in-memory stack: sections are contiguous, cover every row exactly once, and each section file returns precisely the images appended to it in order.", "quantifier": "all image counts, shapes, buffer sizes, contents", "why_tests_cant": "section arithmetic and append history over all sizes", "anchors": ["src/stcal/outlier_detection/median.py: _OnDiskMedian", "src/stcal/outlier_detection/median.py: MedianComputer", "src/stcal/outlier_detection/median.py: nanmedian3D"]}
{"id": "C16", "title": "The disk-backed median accepts exactly the frames it was sized for", "statement": "A median computer created for N frames accepts N images and rejects the (N+1)-th. (The implementation instead compares against the number of sections: the exact acceptance limit is the section count.)", "quantifier": "all N, shapes and buffer sizes", "why_tests_cant": "needs the section count for all sizes", "anchors": ["src/stcal/outlier_detection/median.py: _OnDiskMedian.add_image"]}
{"id": "C17", "title": "Outlier flags are exactly the pixels exceeding the noise threshold", "statement": "A pixel is flagged as a cosmic ray in un-resampled data if and only if |sci - blot| exceeds snr times its error (NaN error counting as 0), and never when sci, blot or snr is NaN; the derivative image used for resampled data is at each non-NaN pixel the largest absolute difference to its four in-image neighbours (NaN neighbours ignored) and NaN at NaN pixels.", "quantifier": "all images and shapes; errors finite or NaN, and differences that do not overflow to infinity", "why_tests_cant": "pointwise over all images including borders, in rounded arithmetic", "anchors": ["src/stcal/outlier_detection/utils.py: flag_crs", "src/stcal/outlier_detection/utils.py: _abs_deriv"]}
{"id": "C18", "title": "After-jump flag propagation covers exactly the requested window", "statement": "Propagating jump flags to the following n groups flags a group if and only if it, or one of the n groups before it, was a flagged jump; the two internal strategies (bulk shift and per-event) give the same answer, so the result does not depend on how crowded the data are.", "quantifier": "every ramp length, window and flag pattern", "why_tests_cant": "strategy is chosen from data statistics; equality needed for all patterns", "anchors": ["src/stcal/jump/twopoint_difference.py: propagate_flags"]}
{"id": "C19", "title": "Four-neighbour flagging is exact", "statement": "After neighbour flagging a group is flagged if and only if it was flagged, or one of its four edge neighbours had a jump flag whose amplitude ratio lies strictly within the neighbour limits, and the group is not itself saturated or do-not-use; the flags reported for the rows just outside a slice are exactly those its border rows would induce.", "quantifier": "all image shapes and flag patterns", "why_tests_cant": "border handling and slice edges for all sizes", "anchors": ["src/stcal/jump/twopoint_difference.py: flag_four_neighbors"]}
{"id": "C20", "title": "Jump step never leaves JUMP_DET on saturated or do-not-use groups", "statement": "In the group DQ returned by the jump step no group carries JUMP_DET together with SATURATED or DO_NOT_USE coming from the detection stage, and apart from JUMP_DET the detection stage changes no DQ bit.", "quantifier": "all inputs", "why_tests_cant": "postcondition on every DQ word", "anchors": ["src/stcal/jump/jump.py: detect_jumps_data"]}
{"id": "C21", "title": "Splitting jump detection over processes recovers cross-slice neighbours", "statement": "Slicing the rows for jump detection and reassembling yields every row exactly once and in order, and the neighbour flags that cross a slice border are OR-ed into the adjacent row of the neighbouring slice, so that (absent after-jump propagation and per-slice skip decisions) the multi-process DQ equals the single-process DQ.", "quantifier": "all row counts and slice counts", "why_tests_cant": "index arithmetic over all sizes", "anchors": ["src/stcal/jump/jump.py: slice_data", "src/stcal/jump/jump.py: reassemble_sliced_data", "src/stcal/jump/jump.py: twopoint_diff_multi"]}
{"id": "C22", "title": "Too few usable groups means no jump is ever flagged", "statement": "Jump detection is skipped exactly when some integration has fewer usable groups (groups with at least one pixel that is not DO_NOT_USE) than the minimum and the sigma-clipping alternative lacks data too: fewer integrations than its minimum, or, when it counts groups of a single integration, fewer usable groups than its minimum. A skipped exposure has its group DQ returned unchanged and no neighbour rows are reported. (With several integrations and groups counted, the code deducts only the unusable groups of the last integration, so the decision depends on the order of the integrations.)", "quantifier": "all group/integration counts and thresholds", "why_tests_cant": "decision table over unbounded counts", "anchors": ["src/stcal/jump/twopoint_difference.py: find_crs", "src/stcal/jump/twopoint_difference.py: check_group_counts"]}
{"id": "C23", "title": "The per-ramp jump search is the documented iteration", "statement": "For one pixel's first differences, the iterative search flags a difference if and only if it is clipped in some round, where a round clips every in-use difference whose excess over the typical difference is the largest and beyond the limit for the number in use; it always terminates within (number of differences) rounds, stops for good once a round clips nothing, never clips with fewer than two differences in use, and never re-admits a clipped difference. (Several differences may be clipped in one round when they tie.)", "quantifier": "every ramp, threshold and noise value", "why_tests_cant": "termination and monotonicity for arbitrary ramps", "anchors": ["src/stcal/jump/twopoint_difference.py: iterative_jump", "src/stcal/jump/twopoint_difference.py: get_cr_locs", "src/stcal/jump/twopoint_difference.py: calc_med_first_diffs"]}
{"id": "C24", "title": "Snowball saturation and jump ellipses touch only what they may", "statement": "Expanding large events flags a pixel JUMP only inside the expanded ellipse and only where it is not saturated, never clears a JUMP or SATURATED flag, and keeps working for every number of groups.", "quantifier": "all group counts, masks, ellipses", "why_tests_cant": "set-level statement over all masks; group counts 1, 2 are corner cases", "anchors": ["src/stcal/jump/jump.py: flag_large_events", "src/stcal/jump/jump.py: extend_ellipses", "src/stcal/jump/jump.py: extend_saturation"]}
{"id": "C25", "title": "Persisting jump flags into the next integration", "statement": "After a saturated event, persistence flags precisely the first k groups (excluding group 0 as documented in the code) of the next integration at the event's pixels and nothing in any other integration.", "quantifier": "all shapes and k", "why_tests_cant": "index window for all sizes", "anchors": ["src/stcal/jump/jump.py: flag_large_events"]}
{"id": "C26", "title": "CAS22 ramps are the maximal runs of good resultants", "statement": "The initial ramps of a pixel are exactly the maximal runs of consecutive resultants with DQ 0: disjoint, in order, covering every good resultant and no flagged one.", "quantifier": "every DQ vector of any length", "why_tests_cant": "maximality over all 2^n patterns and all n", "anchors": ["src/stcal/ramp_fitting/ols_cas22/_ramp.pyx: init_ramps"]}
{"id": "C27", "title": "CAS22 jump splitting terminates and accounts for every resultant", "statement": "The jump-and-split loop terminates for every pixel and every detector oracle; the final ramps are pairwise disjoint, contain only resultants that were good on input and are not flagged on output, and every good input resultant ends either in exactly one final ramp or flagged as a jump.", "quantifier": "every pixel, every sequence of jump decisions", "why_tests_cant": "unbounded work-list algorithm with arbitrary detector answers", "anchors": ["src/stcal/ramp_fitting/ols_cas22/_jump.pyx: fit_jumps"]}
{"id": "C28", "title": "CAS22 fit recovers an exactly linear ramp", "statement": "For resultants lying exactly on a line in mean time, the CAS22 weighted fit of a ramp with at least two resultants returns the slope of that line, whatever exponent the signal-dependent power law chooses, and is unaffected by adding a constant to all resultants. A pixel with non-zero read noise whose good resultants lie on one line, two of them adjacent, gets that slope, and jump detection with thresholds that stay non-negative flags nothing.", "quantifier": "all read patterns with distinct mean times, all DQ vectors, all thresholds as described, exact arithmetic", "why_tests_cant": "algebraic identity for all lengths", "anchors": ["src/stcal/ramp_fitting/ols_cas22/_ramp.pyx: fit_ramp"]}
{"id": "C29", "title": "CAS22 weight exponent follows the published table", "statement": "The weighting exponent is 0 below S/N 5 (including minus infinity), 0.4 in [5,10), 1 in [10,20), 3 in [20,50), 6 in [50,100), 10 from 100 on, and 10 for a NaN S/N.", "quantifier": "every signal-to-noise value including NaN and infinities", "why_tests_cant": "threshold table must be right at every boundary and between", "anchors": ["src/stcal/ramp_fitting/ols_cas22/_ramp.pyx: _get_power"]}
{"id": "C30", "title": "OLS segments are exactly the jump-free stretches", "statement": "The segments fitted in an integration are the maximal runs of usable groups, each extended by an immediately preceding group flagged only as a jump; segments are disjoint and ordered; single-group segments are dropped whenever a longer one exists, and if none is longer only the first is kept; a ramp saturated in its first group has none.", "quantifier": "every group DQ vector of any length", "why_tests_cant": "linked-list construction and pruning over all patterns", "anchors": ["src/stcal/ramp_fitting/src/slope_fitter.c: compute_integration_segments", "src/stcal/ramp_fitting/src/slope_fitter.c: add_segment_to_list", "src/stcal/ramp_fitting/src/slope_fitter.c: prune_segment_list"]}
{"id": "C31", "title": "OLS slope of an exactly linear ramp is exact", "statement": "If within every segment the counts lie on a line of common slope s per group, the fitted integration slope and the combined exposure slope are s / group_time, independent of weights, read noise, gain and of where jumps split the ramp. (Provided the combined read-noise variance stays below the fitter's threshold of 1e6; a segment used must have at least two groups.)", "quantifier": "all segmentations, all positive variances, any weights, exact arithmetic", "why_tests_cant": "algebraic identity for all lengths and weights", "anchors": ["src/stcal/ramp_fitting/src/slope_fitter.c: ramp_fit_pixel_integration_fit_slope", "src/stcal/ramp_fitting/src/slope_fitter.c: ramp_fit_pixel"]}
{"id": "C32", "title": "Ramp-fit DQ compression", "statement": "In the fitted products a pixel of an integration is DO_NOT_USE exactly when it was on input, its gain is invalid, or no ZEROFRAME stands in and either its first group is saturated or all its groups are saturated/do-not-use; SATURATED when it was on input or any group is saturated (except a single-group ramp replaced by its ZEROFRAME); JUMP_DET and PERSISTENCE when any group is; all other input flags are kept. The python compression used by the likelihood fitter sets DO_NOT_USE when all groups are saturated/do-not-use and SATURATED/JUMP_DET when any group is. In the exposure product DO_NOT_USE survives only if set in every integration while all other flags are OR-ed.", "quantifier": "all DQ cubes", "why_tests_cant": "quantifies over all words and shapes", "anchors": ["src/stcal/ramp_fitting/utils.py: dq_compress_sect", "src/stcal/ramp_fitting/utils.py: dq_compress_final", "src/stcal/ramp_fitting/src/slope_fitter.c: ramp_fit_pixel"]}
{"id": "C33", "title": "A pixel without any fittable group is reported invalid", "statement": "If no group of any integration of a pixel can be fitted, its rate is NaN with zero variances and it carries DO_NOT_USE, so that a downstream user never mistakes it for a measured zero.", "quantifier": "all group DQ patterns", "why_tests_cant": "all flag patterns, e.g. ramps whose every group is flagged as a jump", "anchors": ["src/stcal/ramp_fitting/src/slope_fitter.c: ramp_fit_pixel", "src/stcal/ramp_fitting/src/slope_fitter.c: ramp_fit_pixel_integration"]}
{"id": "C34", "title": "Suppression of one-good-group ramps is exact", "statement": "With suppression on, the groups of a ramp gain DO_NOT_USE if and only if exactly one of its groups is free of flags other than PERSISTENCE; nothing else changes.", "quantifier": "all DQ cubes", "why_tests_cant": "counting condition over all patterns", "anchors": ["src/stcal/ramp_fitting/ramp_fit.py: suppress_one_good_group_ramps"]}
{"id": "C35", "title": "MIRI first/last frame discarding", "statement": "Leading groups that are entirely do-not-use, and a final entirely do-not-use group, are removed; all other groups keep their order and content, except that JUMP_DET is cleared in every group that follows a removed leading group (that jump was measured against an unusable group); the fit is refused exactly when fewer than two groups remain.", "quantifier": "all group counts and patterns", "why_tests_cant": "trim loop over all lengths", "anchors": ["src/stcal/ramp_fitting/ols_fit.py: discard_miri_groups"]}
{"id": "C36", "title": "Byte-order conversion is undone", "statement": "Arrays supplied in foreign byte order are fitted as if native, and all caller arrays hold their original values in their original byte order afterwards.", "quantifier": "all arrays in either byte order", "why_tests_cant": "per-array bookkeeping that tests check for one combination", "anchors": ["src/stcal/ramp_fitting/ols_fit.py: handle_array_endianness", "src/stcal/ramp_fitting/ols_fit.py: endianness_handler", "src/stcal/ramp_fitting/ols_fit.py: ols_ramp_fit_single"]}
{"id": "C37", "title": "The likelihood fit is the generalised least-squares estimate", "statement": "For read times in order, positive read noise and a non-negative rate guess, the count rate returned by the likelihood fit equals (1' V^-1 d)/(1' V^-1 1) for the covariance V of the used differences, its error is sqrt(1/(1' V^-1 1)), the weights are the best linear unbiased ones and the reported chi squared is the minimum over all rates, for any number of differences and any non-empty mask.", "quantifier": "every read pattern, mask, rate guess, gain and read noise, exact arithmetic", "why_tests_cant": "identity of determinant recursions for all n", "anchors": ["src/stcal/ramp_fitting/likely_fit.py: fit_ramps", "src/stcal/ramp_fitting/likely_fit.py: compute_thetas", "src/stcal/ramp_fitting/likely_fit.py: compute_phis", "src/stcal/ramp_fitting/likely_fit.py: matrix_computations"]}
{"id": "C38", "title": "The likelihood fit recovers a constant rate", "statement": "If all used differences equal r the fitted rate is r, whatever the noise model and whichever differences are masked.", "quantifier": "all lengths, masks, covariances, exact arithmetic", "why_tests_cant": "for all n and masks", "anchors": ["src/stcal/ramp_fitting/likely_fit.py: fit_ramps", "src/stcal/ramp_fitting/likely_fit.py: get_ramp_result"]}
{"id": "C39", "title": "Likelihood jump masking only ever removes differences", "statement": "The set of differences used shrinks monotonically during jump detection, differences touching groups with a flag in their (8-bit) word are never used, detection stops after at most as many rounds as there are differences, pixels with three or fewer remaining differences are not searched again, and JUMP_DET is set exactly on the groups closing a removed difference.", "quantifier": "every sequence of chi-square values", "why_tests_cant": "loop invariants for arbitrary numeric behaviour", "anchors": ["src/stcal/ramp_fitting/likely_fit.py: mask_jumps", "src/stcal/ramp_fitting/likely_fit.py: determine_diffs2use", "src/stcal/ramp_fitting/likely_fit.py: likely_ramp_fit"]}
{"id": "C40", "title": "Ramp fitting does not alter the caller's read pattern", "statement": "Running the likelihood fit leaves the read pattern the caller supplied unchanged.", "quantifier": "all read patterns, with and without ZEROFRAME", "why_tests_cant": "aliasing of a mutable argument", "anchors": ["src/stcal/ramp_fitting/likely_fit.py: likely_ramp_fit", "src/stcal/ramp_fitting/likely_fit.py: get_readtimes"]}
{"id": "C41", "title": "Sky matching is one-sided and anchored", "statement": "After matching down every matched image has a non-negative sky offset and at least one has offset exactly 0 (matching up: non-positive); images without overlap are reported invalid and receive no offset.", "quantifier": "any number of images and overlaps, any solution of the least-squares system", "why_tests_cant": "order statistics over all delta vectors with missing entries", "anchors": ["src/stcal/skymatch/skymatch.py: skymatch", "src/stcal/skymatch/skymatch.py: _apply_sky"]}
{"id": "C42", "title": "Global sky is the minimum over inputs", "statement": "The 'global' method assigns to every input the smallest sky value measured over all inputs for which one could be computed, regardless of the order of the inputs.", "quantifier": "any list of inputs, some without a measurable sky", "why_tests_cant": "permutations and missing values", "anchors": ["src/stcal/skymatch/skymatch.py: skymatch"]}
{"id": "C43", "title": "Subtracting and not subtracting the sky agree", "statement": "For a sky statistic that shifts with the data, running with subtract=True gives every image the same final sky value as subtract=False, and leaves image + sky (for each pixel) equal to the original data; members of a group always receive the same change.", "quantifier": "any number of images, groups, methods, statistics", "why_tests_cant": "relational property of two executions", "anchors": ["src/stcal/skymatch/skymatch.py: skymatch", "src/stcal/skymatch/skyimage.py: SkyGroup"]}
{"id": "C44", "title": "Resampling bookkeeping counts each pointing once", "statement": "For any sequence of added models, the exposure time, duration and pointings of the output count each distinct group_id exactly once, start and end times are the extreme ones, the order of models with the same multiset does not matter, and after finalize no model is accepted and finalize is idempotent.", "quantifier": "every history of add/finalize/reset calls", "why_tests_cant": "unbounded operation sequences", "anchors": ["src/stcal/resample/resample.py: Resample.add_model", "src/stcal/resample/resample.py: Resample.finalize", "src/stcal/resample/resample.py: Resample.update_time", "src/stcal/resample/resample.py: Resample.finalize_time_info", "src/stcal/resample/resample.py: Resample.reset_arrays"]}
{"id": "C45", "title": "Combined variance is the inverse-weight propagated variance", "statement": "At each output pixel the combined variance is scale * sum(w_i^2 v_i) / (sum w_i)^2 over the inputs with valid variance and positive weight, NaN when there are none, and does not depend on the order of inputs.", "quantifier": "any number of inputs, any NaN pattern, exact arithmetic", "why_tests_cant": "running sums over histories with missing data", "anchors": ["src/stcal/resample/resample.py: Resample.resample_variance_arrays", "src/stcal/resample/resample.py: Resample.finalize_resample_variance"]}
{"id": "C46", "title": "Drizzle weights are zero on bad pixels", "statement": "The drizzle weight of a pixel is 0 whenever its DQ contains a bit outside good_bits, and otherwise the inverse variance (0 when that is not finite, 1 when no variance is available), the exposure time, or 1 according to the weight type.", "quantifier": "all DQ words, good bits, variances", "why_tests_cant": "all words and float classes", "anchors": ["src/stcal/resample/utils.py: build_driz_weight", "src/stcal/resample/utils.py: build_mask", "src/stcal/resample/utils.py: _get_inverse_variance", "src/stcal/resample/utils.py: get_tmeasure"]}
{"id": "C47", "title": "Resampling range stays inside the image", "statement": "The pixel range used for resampling is a non-empty range of valid pixel indices of the input image whenever the bounding box meets the image.", "quantifier": "all shapes and bounding boxes", "why_tests_cant": "rounding and clamping corners over all values", "anchors": ["src/stcal/resample/utils.py: resample_range"]}
{"id": "C48", "title": "The mean-pixel-area search terminates and walks the true perimeter", "statement": "The boundary search shrinks one edge per round and stops after finitely many rounds for any WCS behaviour; the sampled boundary points all lie on the perimeter of the rectangle, in counter-clockwise order, and include its corners.", "quantifier": "all rectangles, all patterns of invalid world coordinates", "why_tests_cant": "termination for an arbitrary oracle", "anchors": ["src/stcal/resample/utils.py: compute_mean_pixel_area", "src/stcal/resample/utils.py: _get_boundary_points"]}
{"id": "C49", "title": "Catalogue partition lookup misses no source", "statement": "For a catalogue partitioned into non-nested HEALPix cells, every source whose depth-29 index lies in a searched cell is both inside one of the selected partitions and accepted by the index filters, and the filters accept nothing outside the searched cells.", "quantifier": "all catalogues, depths and search lists", "why_tests_cant": "hierarchical index arithmetic over all depths", "anchors": ["src/stcal/tweakreg/_s3_catalog.py: _find_pixels_in_catalog", "src/stcal/tweakreg/_s3_catalog.py: _generate_depth_29_ranges"]}
{"id": "C50", "title": "Catalogue trimming keeps the requested number of sources", "statement": "Asking for the k brightest (or, with a negative count, the k faintest) sources returns exactly min(k, available) sources, and they are the brightest (faintest) ones; asking for zero returns none.", "quantifier": "all catalogues and counts", "why_tests_cant": "slice sign conventions for all counts incl. 0", "anchors": ["src/stcal/tweakreg/astrometric_utils.py: create_astrometric_catalog"]}
{"id": "C51", "title": "Rotation matrices are orthogonal with the requested parity", "statement": "For every roll angle and y-angle, the PC matrix is orthogonal with determinant equal to the parity, any other parity is rejected.", "quantifier": "all angles", "why_tests_cant": "real-valued identity", "anchors": ["src/stcal/alignment/util.py: calc_rotation_matrix"]}
{"id": "C52", "title": "The combined bounding box holds the input footprints", "statement": "Every input footprint vertex projects inside the output bounding box to within one pixel, never below its lower edge; with an explicit shape the box never exceeds the image.", "quantifier": "all footprints, reference pixels, shapes", "why_tests_cant": "rounding bounds for all reals", "anchors": ["src/stcal/alignment/util.py: _compute_bounding_box_with_offsets"]}
{"id": "C53", "title": "S_REGION strings round-trip", "statement": "Parsing an S_REGION written by this library gives back the vertices, in order, to the printed precision.", "quantifier": "all vertex lists", "why_tests_cant": "string-level round trip for all lengths and values", "anchors": ["src/stcal/alignment/util.py: sregion_to_footprint", "src/stcal/alignment/util.py: compute_s_region_keyword", "src/stcal/alignment/resample_utils.py: _polygons_to_sregion"]}
{"id": "C54", "title": "Velocity aberration maps directions to directions", "statement": "For any observer velocity below the speed of light and any unit direction, the corrected direction is again a unit vector and the scale factor is positive; zero velocity leaves direction and scale unchanged.", "quantifier": "all velocities and directions, exact arithmetic", "why_tests_cant": "real-valued identity", "anchors": ["src/stcal/velocity_aberration.py: compute_va_effects_vector"]}
{"id": "C55", "title": "ZEROFRAME samples are zeroed exactly where unusable", "statement": "When a ZEROFRAME is supplied, the saturation step replaces a ZEROFRAME sample by 0 if and only if it is zero or negative, or some ZEROFRAME sample of the same integration within n_pix_grow_sat pixels is at or above its effective saturation threshold; every other sample is returned unchanged.", "quantifier": "all inputs, integrations, pixels and grow radii", "why_tests_cant": "holds for every pixel position, every image shape and every value including NaN; tests only check hand-made frames", "anchors": ["src/stcal/saturation/saturation.py: flag_saturated_pixels, _plane_saturation, _adjacent_pixels"]}
{"id": "C56", "title": "Read-level linearity recovers a linear ramp", "statement": "If the true signal is linear in time and the forward and inverse polynomials describe the detector exactly, the read-level linearity correction returns, for every unsaturated group, exactly the mean of the true signal over that group's reads, however many reads are averaged (in exact arithmetic, when the first group and the last group used for the rate hold a single read).", "quantifier": "all read patterns, polynomials of any degree, ramps, saturation onsets and pixels", "why_tests_cant": "Depends on every degree of polynomial, every read pattern and every onset of saturation; numerical tests check a few patterns to a tolerance.", "anchors": ["src/stcal/linearity/linearity.py:_linearity_correction_tile", "src/stcal/linearity/linearity.py:linearity_correction_int"]}
{"id": "C57", "title": "Resampled-data outlier flags need both thresholds", "statement": "With resampled reference data a pixel is flagged if and only if its own deviation |sci - blot - backg| exceeds scale2*derivative + snr2*error and some in-image pixel of the surrounding 3x3 window exceeds scale1*derivative + snr1*error; a pixel with NaN science or reference value is never flagged, and nothing outside the image contributes.", "quantifier": "all images, shapes, thresholds; errors finite or NaN", "why_tests_cant": "border handling of the smoothing and the two-threshold logic over all images", "anchors": ["src/stcal/outlier_detection/utils.py: flag_resampled_crs"]}
{"id": "C58", "title": "The NaN-aware median filter is centred and shape preserving for odd kernels", "statement": "For odd kernel sizes the median filter returns an array of the input's shape whose value at each pixel is the NaN-ignoring median of the kernel window centred on that pixel with zeros outside the image; an even kernel axis makes the output one longer along that axis.", "quantifier": "all shapes and kernel sizes", "why_tests_cant": "index arithmetic over all sizes", "anchors": ["src/stcal/outlier_detection/utils.py: medfilt"]}
{"id": "C59", "title": "The edge exemption for snowballs applies only near the detector edge", "statement": "When a saturated core is required, an event without a saturated core is expanded only if its centre lies within the edge size of one of the four detector edges, whatever the shape of the array.", "quantifier": "all detector shapes, edge sizes and event positions", "why_tests_cant": "tests use square arrays; non-square arrays expose the use of one dimension for both axes", "anchors": ["src/stcal/jump/jump.py: make_snowballs, near_edge"]}
{"id": "C60", "title": "Shower flagging only adds jump flags and keeps every pixel usable", "statement": "Flagging extended showers changes only the JUMP_DET flag and never clears it; it never flags a pixel in a group where it is saturated, never changes a reference pixel, and flags only inside the expanded shower and the requested number of later groups. A pixel whose flags change keeps two adjacent unflagged groups and its mean group difference is finite and changed by no more than the maximum amplitude; otherwise it keeps its flags. With fewer than ten differences nothing changes.", "quantifier": "all arrays, shapes, shower positions, flags and parameters", "why_tests_cant": "depends on the interaction of several showers, reference pixels and the amplitude check", "anchors": ["src/stcal/jump/jump.py: find_faint_extended, max_flux_showers, extend_ellipses"]}
{"id": "C61", "title": "Flagged groups do not enter the shower search", "statement": "The data from which shower differences and their median are formed have every group flagged JUMP_DET, SATURATED or DO_NOT_USE blanked out.", "quantifier": "all flag words", "why_tests_cant": "tests use words with a single flag; words with an additional unrelated flag behave differently", "anchors": ["src/stcal/jump/jump.py: nan_invalid_data"]}
{"id": "C62", "title": "Large-event flagging never marks a saturated group as a jump", "statement": "After expanding large events, including the persistence flagging of the next integration, no group carries both JUMP_DET and SATURATED unless it did so before.", "quantifier": "all arrays and parameters", "why_tests_cant": "needs an event core that is saturated again in the next integration", "anchors": ["src/stcal/jump/jump.py: flag_large_events"]}
{"id": "C63", "title": "Pixels with unusable gain are marked before jump detection", "statement": "The pixel DQ used by jump detection gains NO_GAIN_VALUE and DO_NOT_USE exactly at pixels whose gain is zero, negative or NaN, and is otherwise unchanged.", "quantifier": "all gain maps and pixel DQ arrays", "why_tests_cant": "special values of the gain, every pixel", "anchors": ["src/stcal/jump/jump.py: setup_pdq"]}
{"id": "C64", "title": "CAS22 refit with the returned DQ reproduces the result", "statement": "Fitting a pixel again with the DQ returned by the first fit, with jump detection on (when the first fit had it on) or off, gives the same rate, variances and ramps, flags no further jump and leaves the DQ unchanged.", "quantifier": "every pixel, thresholds, read pattern, any number type with IEEE comparison laws", "why_tests_cant": "fixpoint of an iterative splitting procedure for every detector outcome", "anchors": ["src/stcal/ramp_fitting/ols_cas22/_jump.pyx: fit_jumps"]}
{"id": "C65", "title": "CAS22 pixels are fitted independently", "statement": "In a multi-pixel fit every pixel's result equals the result of fitting that pixel alone, whatever the other pixels and whatever the initial contents of the shared work buffers; a read pattern whose length differs from the number of resultants raises.", "quantifier": "every number of pixels, every buffer content", "why_tests_cant": "shared buffers are reused between pixels and not cleared; leaks show only for particular neighbours", "anchors": ["src/stcal/ramp_fitting/ols_cas22/_fit.pyx: fit_ramps", "src/stcal/ramp_fitting/ols_cas22/_jump.pyx: _fill_pixel_values"]}
{"id": "C66", "title": "CAS22 combination of ramps", "statement": "The rate of a pixel is the inverse-read-variance weighted mean of its ramps' rates, lies between the smallest and the largest of them, and its read variance is the harmonic sum of the ramps' and no larger than any of them. A pixel with no two adjacent good resultants reports rate 0 and variances 0 with unchanged DQ.", "quantifier": "every list of ramps with non-negative read variances; every DQ vector without two adjacent good resultants", "why_tests_cant": "inequalities over all lists of real rates and variances", "anchors": ["src/stcal/ramp_fitting/ols_cas22/_jump.pyx: fit_jumps lines 454-456, 575-593"]}
{"id": "C67", "title": "CAS22 Poisson variance is the variance of the estimator", "statement": "For a read pattern whose read numbers never decrease, tau is the variance and the earlier mean time the covariance of the mean counts of resultants under a Poisson process of unit rate; the Poisson variance of a ramp fit is exactly the variance of its linear estimator, and the variance used by the jump statistic is that of the difference of two resultants.", "quantifier": "every ordered read pattern, every ramp, exact arithmetic", "why_tests_cant": "identity between a one-pass weighted sum and a double sum of covariances for all lengths", "anchors": ["src/stcal/ramp_fitting/ols_cas22/_ramp.pyx: from_read_pattern, fit_ramp", "src/stcal/ramp_fitting/ols_cas22/_jump.pyx: fill_fixed_values"]}
{"id": "C68", "title": "CAS22 splits a ramp exactly when a difference exceeds the threshold", "statement": "With jump detection on, a ramp of two or more resultants is split exactly when the statistic of some single or double difference lying within it exceeds the threshold, at a position whose statistic is the largest; a ramp of one resultant, and any ramp with detection off, is never split.", "quantifier": "every ramp, buffer, threshold, any number type with IEEE comparison laws; the last single difference having a non-NaN statistic", "why_tests_cant": "maximum over all differences with NaN rules for every length", "anchors": ["src/stcal/ramp_fitting/ols_cas22/_jump.pyx: _fit_statistic, fit_jumps lines 480-491"]}
{"id": "C69", "title": "Reported errors agree with reported variances", "statement": "The error of the exposure rate is the square root of the sum of its Poisson and read-noise variances; an integration's squared error is at least the sum of its two variances and equals it when the ramp is one unbroken segment.", "quantifier": "all ramps, gains, read noises, exact arithmetic", "why_tests_cant": "square roots and harmonic combinations over any number of segments", "anchors": ["src/stcal/ramp_fitting/src/slope_fitter.c: ramp_fit_pixel", "src/stcal/ramp_fitting/src/slope_fitter.c: ramp_fit_pixel_integration_fit_slope", "src/stcal/ramp_fitting/src/slope_fitter.c: ramp_fit_pixel_rnoise_chargeloss"]}
{"id": "C70", "title": "The exposure rate is the inverse-variance mean of its integrations", "statement": "The read-noise variance of the exposure rate is the reciprocal of the sum of reciprocals of its fitted integrations' read-noise variances, and the rate is their mean weighted by those reciprocals; integrations without segments do not count.", "quantifier": "any number of integrations and segments, exact arithmetic", "why_tests_cant": "algebraic identity across two products for every exposure", "anchors": ["src/stcal/ramp_fitting/src/slope_fitter.c: ramp_fit_pixel"]}
{"id": "C71", "title": "Ramp fitting leaves the caller's read noise alone", "statement": "After a ramp fit the read-noise array passed in holds the values it had, so that a second fit with the same arrays gives the same result.", "quantifier": "all gains, read noises, frame counts", "why_tests_cant": "in-place arithmetic visible only to a caller that reuses its arrays", "anchors": ["src/stcal/ramp_fitting/ramp_fit.py: ramp_fit_data"]}
{"id": "C72", "title": "The likelihood fit's noise table is the covariance of the group-mean differences", "statement": "For any read pattern with ordered reads, the diagonal and off-diagonal entries used by the likelihood fit equal the covariances of the differences of successive group means (divided by their time steps) under Poisson counts at rate guess/gain plus independent read noise; covariances beyond neighbouring differences are zero and the matrix is positive definite.", "quantifier": "every read pattern with increasing read times, any number of reads per group; positive read noise, non-negative rate; exact arithmetic", "why_tests_cant": "an identity about averaged reads for arbitrary patterns; tests check a few patterns numerically", "anchors": ["src/stcal/ramp_fitting/likely_algo_classes.py: Covar", "src/stcal/ramp_fitting/likely_fit.py: compute_alphas_betas"]}
{"id": "C73", "title": "Likelihood variance parts", "statement": "The Poisson and read-noise variances reported by the likelihood fit are the variances each noise source gives the fitted weighted mean; both are non-negative (the read-noise one positive) and they sum to the square of the reported error.", "quantifier": "every read pattern, mask and noise level, exact arithmetic", "why_tests_cant": "holds for all lengths and masks", "anchors": ["src/stcal/ramp_fitting/likely_fit.py: get_ramp_result"]}
{"id": "C74", "title": "Leave-one-out and leave-two-out values equal refits", "statement": "When jumps are searched, the rate and chi squared reported for leaving out one difference (or two neighbouring ones) equal those of a fresh fit with those differences masked, whatever was masked before.", "quantifier": "all lengths, masks, covariances, exact arithmetic", "why_tests_cant": "algebraic identity over all lengths and masks; degenerate cases are measure zero for random tests", "anchors": ["src/stcal/ramp_fitting/likely_fit.py: compute_jump_detects", "src/stcal/ramp_fitting/likely_algo_classes.py: fill_masked_reads"]}
{"id": "C75", "title": "Rescaling the covariance does not change the likelihood fit", "statement": "Any positive scale gives the same rate, error, chi squared, weights and variance parts; the scale chosen by the fit is positive and normalises the determinant to one.", "quantifier": "all lengths, positive definite covariances, masks; exact arithmetic with exact roots", "why_tests_cant": "invariance over all scales", "anchors": ["src/stcal/ramp_fitting/likely_fit.py: compute_alphas_betas", "src/stcal/ramp_fitting/likely_fit.py: fit_ramps"]}
{"id": "C76", "title": "Combining integrations in the likelihood fit", "statement": "With two or more integrations the combined rate lies between the smallest and largest integration rate (and equals a common rate), the combined variance is 1/sum(1/v_i) and no larger than any v_i, error squared equals Poisson plus read-noise variance, both non-negative, and chi squared is the sum.", "quantifier": "any number of integrations >= 2, any rates, non-negative Poisson and positive read-noise variances, exact arithmetic", "why_tests_cant": "for all integrations and rates", "anchors": ["src/stcal/ramp_fitting/likely_fit.py: compute_image_info"]}
{"id": "C77", "title": "Sky matching recovers constant backgrounds", "statement": "If the sky differences measured in the overlaps are those of some constant background per input, then matching (with any least-squares solver) gives overlapping inputs offsets whose differences are exactly the background differences, and measuring again afterwards gives equal sky in every overlap.", "quantifier": "any number of images, groups and overlaps, any shape of the overlap graph, matching up or down, subtracting or not, any minimiser the solver returns", "why_tests_cant": "needs all overlap graphs and all solutions of a singular linear system", "anchors": ["src/stcal/skymatch/skymatch.py: _find_optimum_sky_deltas", "src/stcal/skymatch/skymatch.py: skymatch", "src/stcal/skymatch/skyimage.py: SkyGroup.calc_sky"]}
{"id": "C78", "title": "Global sky removal leaves non-negative skies, local leaves zero", "statement": "After a successful 'global' or 'global+match' run the inputs measured again all have sky at least zero, one of them exactly zero if any is measurable; after 'local' every measurable input measures exactly zero; the set of measurable inputs does not change.", "quantifier": "any list of images and groups, statistic that shifts with the data, subtracting or not", "why_tests_cant": "relates two measurements before and after for every input list and statistic", "anchors": ["src/stcal/skymatch/skymatch.py: skymatch", "src/stcal/skymatch/skymatch.py: _apply_sky"]}
{"id": "C79", "title": "The bounding polygon of a sky image goes once round the pixel grid", "statement": "The pixel border used for an image's sky footprint is closed, starts at (-0.5, -0.5), contains the four outer corners, lies on the outer edge of the pixel grid and runs along it once, counter-clockwise, without repeating a point, with adjacent points at most stepsize apart.", "quantifier": "any image size and step size", "why_tests_cant": "infinitely many sizes and step sizes; direction decides which side of the polygon is inside", "anchors": ["src/stcal/skymatch/skyimage.py: _calc_bounding_polygon"]}
{"id": "C80", "title": "Which pixels an image's sky is measured from", "statement": "The sky of an image in its overlap with another input is the chosen statistic of exactly the unmasked pixels inside the intersection with at least one overlapping image (none if there is no such pixel); on its own it is the statistic of the unmasked pixels; a group's sky is the pixel-count-weighted mean of its members' skies in an overlap and the smallest of them on its own.", "quantifier": "any images, masks, regions, groups, statistic", "why_tests_cant": "all subsets of pixels and all combinations of overlapping members", "anchors": ["src/stcal/skymatch/skyimage.py: SkyImage.calc_sky", "src/stcal/skymatch/skyimage.py: SkyGroup.calc_sky"]}
{"id": "C81", "title": "Error arrays of a resampled image agree with its variances", "statement": "With compute_err='from_var' the error at a pixel is the square root of the sum of those combined variances that are numbers, and NaN exactly when none is; with 'driz_err' the pixel-scale factor applied to errors is the square root of the one applied to variances.", "quantifier": "all numbers of variance arrays, all NaN patterns, imaging and spectral output, all positive ratios", "why_tests_cant": "NaN patterns over any number of arrays; consistency between two code paths", "anchors": ["src/stcal/resample/resample.py: Resample.finalize", "src/stcal/resample/resample.py: Resample.finalize_resample_variance"]}
{"id": "C82", "title": "One pixel scale ratio for the whole product", "statement": "The pixel scale ratio used for a product is the one given by the caller; when none is given it is the ratio of the first added model for which it can be determined, and it never changes afterwards.", "quantifier": "every sequence of added models", "why_tests_cant": "unbounded sequences of calls", "anchors": ["src/stcal/resample/resample.py: Resample._compute_pixel_scale_ratio", "src/stcal/resample/resample.py: Resample.add_model"]}
{"id": "C83", "title": "Sparse pixel maps agree with full ones", "statement": "calc_pixmap leaves both bounding boxes as they were, computes every pixel exactly when stepsize is 1 or a coarse point fails, and otherwise interpolates on a grid that covers the pixel range from end to end with spacing not larger than stepsize; for affine mappings the interpolated map equals the full one inside the bounding box.", "quantifier": "all shapes, boxes, step sizes, mappings", "why_tests_cant": "all shapes and step sizes; equality of two computations", "anchors": ["src/stcal/resample/utils.py: calc_pixmap"]}
{"id": "C84", "title": "Alignment returns only vetted corrections", "statement": "A relative alignment returns normally exactly when the separation exceeds sqrt(2) times the tolerance, the aligner succeeded, and every footprint vertex of every image moved by less than the limit implied by search radius or offsets; any exception of the aligner other than the two documented ones comes through unchanged. An absolute alignment returns only with at least the requested number of reference sources and hands the aligner all images in one group without stale reference fits.", "quantifier": "all images, aligner outcomes and parameters, NaN included", "why_tests_cant": "every combination of parameters and aligner outcomes", "anchors": ["src/stcal/tweakreg/tweakreg.py: relative_align", "src/stcal/tweakreg/tweakreg.py: absolute_align", "src/stcal/tweakreg/tweakreg.py: _is_wcs_correction_small"]}
{"id": "C85", "title": "A user's reference catalogue is read one way only", "statement": "Whatever the case of its column names, a catalogue is refused exactly when RA, DEC or sky_centroid occurs twice or there is neither an RA/DEC pair nor a sky_centroid; otherwise the result has one RA and one DEC column (the pair if complete, else from sky_centroid), no sky_centroid and every other column unchanged in order. Blanks around a catalogue name and its case do not matter and a known name wins over a file.", "quantifier": "all tables and names (ASCII)", "why_tests_cant": "arbitrary column sets, orders and spellings", "anchors": ["src/stcal/tweakreg/tweakreg.py: _parse_sky_centroid", "src/stcal/tweakreg/tweakreg.py: _parse_refcat"]}
{"id": "C86", "title": "The bounding-box filter keeps exactly the sources strictly inside", "statement": "Filtering a source catalogue by a bounding box keeps, in order, exactly the sources strictly inside it (a NaN position is outside); without a box the catalogue is unchanged.", "quantifier": "all catalogues and boxes", "why_tests_cant": "every position incl. edges and NaN", "anchors": ["src/stcal/tweakreg/tweakreg.py: filter_catalog_by_bounding_box"]}
{"id": "C87", "title": "Proper motion moves complete sources tangentially, and only them", "statement": "Without an epoch the S3 catalogue is returned as stored; with one, exactly the sources with proper motion and parallax remain, in order, with all columns but the position unchanged, displaced before re-normalisation by (proper motion x time - parallax x earth position) along east and north and not at all along the line of sight.", "quantifier": "all catalogues, epochs and motions, exact arithmetic", "why_tests_cant": "real-valued identity over all rows", "anchors": ["src/stcal/tweakreg/_s3_catalog.py: _correct_for_proper_motion", "src/stcal/tweakreg/_s3_catalog.py: get_s3_catalog"]}
{"id": "C88", "title": "Pixel scale follows the requested ratio", "statement": "The pixel scale with a requested ratio r >= 0 is r times the scale without it, for imaging and for either dispersion axis, and is positive when both measured separations are non-zero; a spectral WCS without dispersion axis is an error.", "quantifier": "all separations and ratios, exact arithmetic", "why_tests_cant": "real-valued identity", "anchors": ["src/stcal/alignment/util.py: compute_scale"]}
{"id": "C89", "title": "Fiducial points sit in the middle of the footprints", "statement": "The fiducial of a list of footprints points in the direction of the centre of the Cartesian box around all vertices' unit vectors, with longitude in [0, 360) and latitude in [-90, 90]; it does not depend on the order, repetition or grouping of the vertices, one single position is its own fiducial, and an explicit crval wins.", "quantifier": "all footprints, exact arithmetic", "why_tests_cant": "quantifies over all vertex sets", "anchors": ["src/stcal/alignment/util.py: _calculate_fiducial_from_spatial_footprint", "src/stcal/alignment/util.py: _calculate_fiducial", "src/stcal/alignment/util.py: compute_fiducial"]}
{"id": "C90", "title": "Polygon simplification keeps corners and drops straight vertices", "statement": "Simplifying a polygon keeps every corner of a rectilinear polygon with sides of at least 0.05 pixel, removes a vertex in the middle of a straight side, keeps one of two coinciding vertices, and gives the same polygon wherever its vertex list starts.", "quantifier": "all polygons, exact arithmetic", "why_tests_cant": "quantifies over all polygons", "anchors": ["src/stcal/alignment/resample_utils.py: _simplify_by_angle"]}
{"id": "C91", "title": "Optional results: one entry per fitted segment", "statement": "With save_opt, the segment planes of a pixel and integration hold, in time order and starting at plane zero, the slope, variances and weight of each segment that was fitted, and zeros beyond; the number of planes is the largest number of segments of any pixel and integration; and the integration's rate and read-noise variance are the weighted mean of those slopes and the inverse of the summed weights.", "quantifier": "all ramps, flags and image sizes; the weighted mean over exact arithmetic", "why_tests_cant": "quantifies over all flag patterns and over the whole image", "anchors": ["src/stcal/ramp_fitting/src/slope_fitter.c: create_opt_res", "src/stcal/ramp_fitting/src/slope_fitter.c: save_opt_res", "src/stcal/ramp_fitting/src/slope_fitter.c: ramp_fit_pixel_integration_fit_slope_seg", "docs/stcal/ramp_fitting/description.rst: optional output"]}
{"id": "C92", "title": "Optional results: intercepts", "statement": "The slope and y-intercept stored for a segment of two or more groups are those of the line minimising the weighted sum of squared residuals over its groups, and the intercept is the value of that line at an effective exposure time of zero.", "quantifier": "all segments, exact arithmetic", "why_tests_cant": "quantifies over all segments, weights and alternative lines", "anchors": ["src/stcal/ramp_fitting/src/slope_fitter.c: ramp_fit_pixel_integration_fit_slope_seg_default_weighted_seg", "src/stcal/ramp_fitting/src/slope_fitter.c: ramp_fit_pixel_integration_fit_slope_seg_len2", "docs/stcal/ramp_fitting/description.rst: optional output"]}
{"id": "C93", "title": "Optional results: pedestal", "statement": "The pedestal of a pixel and integration is the signal extrapolated with the integration's rate from the first group to an exposure time of zero; it is zero for a pixel saturated in its first group and for an integration flagged DO_NOT_USE, and never NaN there.", "quantifier": "all ramps, flags and exposure patterns; the extrapolation over exact arithmetic", "why_tests_cant": "quantifies over all exposure patterns and flags", "anchors": ["src/stcal/ramp_fitting/src/slope_fitter.c: get_pixel_ramp_integration_segments_and_pedestal", "docs/stcal/ramp_fitting/description.rst: optional output"]}
{"id": "C94", "title": "Optional results: cosmic-ray magnitudes", "statement": "CRMAG lists, for each pixel and integration, in time order, the step from the previous group of every group after the first that is flagged JUMP_DET, and zeros beyond; its length is the largest number of hits of any pixel and integration.", "quantifier": "all ramps and flags, any arithmetic", "why_tests_cant": "quantifies over all flag patterns and the whole image", "anchors": ["src/stcal/ramp_fitting/src/slope_fitter.c: get_pixel_ramp", "src/stcal/ramp_fitting/src/slope_fitter.c: cr_list_add", "src/stcal/ramp_fitting/src/slope_fitter.c: save_opt_res"]}
{"id": "C95", "title": "Optional results: uncertainties of slope and intercept", "statement": "SIGSLOPE and SIGYINT of a segment are the standard errors of its weighted slope and intercept, sqrt(S_w/det) and sqrt(S_xx/det), in the units of SLOPE and YINT, and positive.", "quantifier": "all segments, exact arithmetic", "why_tests_cant": "quantifies over all segments and weights", "anchors": ["src/stcal/ramp_fitting/src/slope_fitter.c: ramp_fit_pixel_integration_fit_slope_seg_default_weighted_seg", "src/stcal/ramp_fitting/src/slope_fitter.c: ramp_fit_pixel_integration_fit_slope_seg_len2"]}
{"id": "C96", "title": "A snowball's saturated core lies inside its jump ellipse", "statement": "Away from the detector edge a jump area counts as a snowball only if the centre of a saturated area lies inside the ellipse the jump area was measured (and is drawn) as, and a core inside that ellipse always counts.", "quantifier": "all ellipses, angles and positions, exact arithmetic; the selection also in double precision", "why_tests_cant": "quantifies over all ellipses and positions; the unit tests use angles for which no drawn area is compared", "anchors": ["src/stcal/jump/jump.py: point_inside_ellipse", "src/stcal/jump/jump.py: make_snowballs", "src/stcal/jump/jump.py: _sk_ellipse", "src/stcal/jump/jump.py: _sk_filter_areas"]}
{"id": "C97", "title": "Shower smoothing interpolates over missing pixels", "statement": "Convolving with a non-negative kernel whose dimensions are odd gives every pixel with a finite value the kernel-weighted mean of the finite pixels (zero beyond the edges), keeps non-finite pixels NaN, does not depend on what those contain, stays within the range of the values in reach, and keeps a flat stretch flat.", "quantifier": "all images, kernels and patterns of missing pixels; exact arithmetic except independence", "why_tests_cant": "quantifies over all images, kernels and patterns of missing pixels", "anchors": ["src/stcal/jump/jump.py: convolve_fast"]}
{"id": "C98", "title": "The shower search reports significant pixels only", "statement": "A pixel is reported as extended emission in a group only if it is usable there and a usable pixel within the ring's reach differs from its usual rise by more than the threshold; a usable pixel away from the edges is reported if all usable pixels in reach do; and on ramps that rise evenly no shower is found and no flag changes, whatever is flagged.", "quantifier": "all exposures, flags, kernels and thresholds >= 0, exact arithmetic", "why_tests_cant": "quantifies over all exposures and flag patterns", "anchors": ["src/stcal/jump/jump.py: find_faint_extended", "src/stcal/jump/jump.py: get_bigellipses", "src/stcal/jump/jump.py: diff_meddiff_int", "src/stcal/jump/jump.py: diff_meddiff_grp", "src/stcal/jump/jump.py: nan_invalid_data"]}
{"id": "C99", "title": "The weight threshold of outlier detection follows the covered pixels", "statement": "The threshold computed from a resampled weight map and a fraction lies between that fraction of the smallest and of the largest weight that is not zero; pixels without coverage (zero or non-finite weight) do not change it; evenly covered pixels are above it for a fraction below one; rescaling all weights rescales it; one pixel with an extreme weight among at least seven equal ones does not move it; a map without coverage gives NaN.", "quantifier": "every weight map, every fraction, every median function", "why_tests_cant": "Sigma clipping stops early or empties its input only for particular weight distributions; tests use one simulated map.", "anchors": ["src/stcal/outlier_detection/utils.py:54-86"]}
{"id": "C100", "title": "Pixel areas, scales and the ratio of a resampled product agree", "statement": "Without a given pixel scale the product's areas in steradians and square arcseconds are those of the output WCS; with one they are the square of that scale; the recorded scale ratio squared is the output area over the input area of the first imaging model with a usable area (the nominal area, the mean WCS area when it is missing or not positive); asking for the mean area falls back to the nominal one; spectral flux densities are divided by the ratio, all other data are left alone.", "quantifier": "every WCS area, every given scale, every list of models", "why_tests_cant": "Tests use square pixels of one scale; the ratio enters intensities and variances only for spectral data.", "anchors": ["src/stcal/resample/resample.py:302-413", "src/stcal/resample/resample.py:449-496", "src/stcal/resample/resample.py:568-626"]}
{"id": "C101", "title": "The estimated output shape holds every pixel in the bounding box", "statement": "When the output WCS has a bounding box but no shape, a pixel is in the estimated image exactly when its far edge is in the box; a box ending on a pixel edge gives the same shape here and in the pixel map; every pixel whose centre is in the box is in the image.", "quantifier": "every bounding box", "why_tests_cant": "Boxes in tests end at half-integers, where rounding conventions coincide.", "anchors": ["src/stcal/resample/resample.py:440-460", "src/stcal/resample/utils.py:120-135"]}
{"id": "C102", "title": "A recorded sky level is removed once", "statement": "A recorded background level that has not been subtracted is subtracted before drizzling, so an image plus a constant drizzles like the image; a level marked as subtracted, or no level, leaves the data untouched.", "quantifier": "every image, every level, every arithmetic", "why_tests_cant": "Tests compare one constant image.", "anchors": ["src/stcal/resample/resample.py:805-830"]}
{"id": "C103", "title": "Blotting fills pixels without a position", "statement": "Blotting hands every defined position on unchanged, and a pixel whose position is undefined in either coordinate gets the fill value that is used left of and below the image.", "quantifier": "every pixel map, every blot function", "why_tests_cant": "NaN positions arise only at WCS domain edges.", "anchors": ["src/stcal/outlier_detection/utils.py:220-297"]}
{"id": "C104", "title": "Groups lost to charge migration do not inflate the read noise", "statement": "Groups flagged CHARGELOSS and DO_NOT_USE are not fitted, but the read-noise variance reported for an integration with such groups is the one the same ramp gets with both flags removed; slopes, DQ, Poisson variances and errors are those of the flagged ramp; integrations and pixels without the flag are untouched; the exposure read-noise variance is the inverse-variance combination of the reported integration variances.", "quantifier": "all ramps, flag patterns, gains, read noises and group counts; the last clause and positivity in exact arithmetic, the rest in any arithmetic", "why_tests_cant": "The recomputation walks a second set of segments of a second copy of the group flags; tests compare a few ramps, not every flag pattern.", "anchors": ["src/stcal/ramp_fitting/src/slope_fitter.c:2913-3035", "src/stcal/ramp_fitting/src/slope_fitter.c:1270-1345", "src/stcal/ramp_fitting/src/slope_fitter.c:2566-2590", "src/stcal/ramp_fitting/ramp_fit.py:66-86"]}
{"id": "C105", "title": "The algorithm name selects the fit", "statement": "The algorithm name is read without regard to case. LIKELY with at least 4 groups runs the likelihood fit; every other call runs the least-squares fit, and LIKELY with fewer than 4 groups returns what OLS_C returns for the same input.", "quantifier": "all exposures, reference images, algorithm names and flag dictionaries, any arithmetic", "why_tests_cant": "The fallback is reached only for short exposures; tests check that it does not fail, not that it equals the other algorithm for every input.", "anchors": ["src/stcal/ramp_fitting/ramp_fit.py:33-114", "src/stcal/ramp_fitting/ramp_fit.py:186-276", "src/stcal/ramp_fitting/src/slope_fitter.c:2128-2142"]}
{"id": "C106", "title": "The flags named in the documentation are enough", "statement": "A ramp fit needs from the flag dictionary only the names its documentation lists (DO_NOT_USE, SATURATED, JUMP_DET, NO_GAIN_VALUE, UNRELIABLE_SLOPE); any dictionary with these works.", "quantifier": "all dictionaries, exposures and algorithms", "why_tests_cant": "Tests always pass a complete dictionary.", "anchors": ["src/stcal/ramp_fitting/ramp_fit.py:165-167", "src/stcal/ramp_fitting/ramp_fit_class.py:133-152", "src/stcal/ramp_fitting/ramp_fit.py:66-86"]}
{"id": "C107", "title": "The ZEROFRAME in the likelihood fit", "statement": "When a ZEROFRAME is present the first group is split into its first read and the mean of the rest, so that a ramp on a straight line gives its rate exactly with or without the ZEROFRAME; the extra difference is used only if the first group is unflagged and later differences are masked as before; a ZEROFRAME sample marked unusable (0) is not used. Without a read pattern groups are nframes + groupgap frames apart.", "quantifier": "all read patterns with ordered reads, lines, masks, noise and guesses; exact arithmetic", "why_tests_cant": "Tests use one read pattern and compare with stored numbers.", "anchors": ["src/stcal/ramp_fitting/likely_fit.py:53-97", "src/stcal/ramp_fitting/likely_fit.py:351-381", "src/stcal/ramp_fitting/likely_fit.py:470-479"]}
{"id": "C108", "title": "A pixel's least-squares result depends on that pixel alone", "statement": "The fitted rate, DQ, variances and errors of a pixel are the same in two exposures taken the same way that agree at that pixel, whatever the other pixels hold.", "quantifier": "all exposures of any size, all pixels, any arithmetic", "why_tests_cant": "Tests never vary the neighbours of a pixel; whole-image tests in the driver can couple pixels.", "anchors": ["src/stcal/ramp_fitting/ramp_fit.py:186-276", "src/stcal/ramp_fitting/ols_fit.py:63-105", "src/stcal/ramp_fitting/ramp_fit.py:66-86"]}
{"id": "C109", "title": "The likelihood fit says so when it cannot fit", "statement": "An integration in which no difference of neighbouring groups can be used gets NaN for rate, variances, error and chi squared and DO_NOT_USE in its DQ; an integration whose groups are all DO_NOT_USE or SATURATED is such a one.", "quantifier": "all masks, data, covariances, gains and guesses; single and double precision and exact arithmetic", "why_tests_cant": "The NaN comes out of 0/0 inside the recursions; tests look at one fully saturated pixel.", "anchors": ["src/stcal/ramp_fitting/likely_fit.py:511-638", "src/stcal/ramp_fitting/likely_fit.py:1208-1230", "src/stcal/ramp_fitting/utils.py:100-118"]}
{"id": "C110", "title": "The Casertano fit of an array is the fit of its pixels, in the caller's shape and unit", "statement": "For resultants of any number of axes (a single ramp included) the call returns for every pixel the rate, variances and DQ the pixel gets on its own, arranged in the caller's shape; a scalar read noise applies to all pixels and a vector to the columns; resultants with a unit give a rate in that unit.", "quantifier": "all array shapes, read patterns, noises, DQ arrays, thresholds, any IEEE-like arithmetic", "why_tests_cant": "Tests use one image shape and no unit; reshaping errors show only for other shapes.", "anchors": ["src/stcal/ramp_fitting/ols_cas22_fit.py:93-144", "src/stcal/ramp_fitting/ols_cas22/_fit.pyx:97-236"]}
{"id": "C111", "title": "Raising a jump threshold never adds a jump", "statement": "Running jump detection again on the same ramps with higher rejection thresholds flags a subset of the groups: no group gains JUMP_DET, in one process and without sigma clipping across integrations, whatever the search strategy (all differences at once, or round by round with a new median after each rejection), the growing into neighbours and the flagging of groups after a large jump; no other DQ bit differs. The same holds for the resultants flagged by the Casertano+22 fit.", "quantifier": "all ramps, DQ words, read noises, frame sizes and all pairs of threshold settings in which none is lowered", "why_tests_cant": "The iterative search re-computes the median after every rejection, so a different threshold changes every later round; a test compares a few threshold pairs", "anchors": ["src/stcal/jump/twopoint_difference.py:221-274", "src/stcal/jump/twopoint_difference.py:353-399", "src/stcal/ramp_fitting/ols_cas22/_jump.pyx:446-581"]}
{"id": "C112", "title": "The Poisson variance of a least-squares fit is the documented one", "statement": "The rate behind the Poisson variance of a pixel is the mean over its integrations of a median: the median of the counting rates between consecutive groups that are both usable (neither DO_NOT_USE nor saturated) with no jump between them; if no such pair exists, the first group's own rate when usable, else zero. The Poisson variance of an integration is (that rate, if positive, plus the dark rate) divided by gain times the time its segments cover; the exposure's is the same with the times of all integrations added; a value of 10^6 or more is reported as 0.", "quantifier": "all ramps, flags, gains, dark rates, timings and numbers of groups and integrations; the median for any IEEE arithmetic, the variance over exact reals", "why_tests_cant": "Unit tests compare a handful of ramps with stored numbers; the median's handling of odd, even, flagged and empty cases and the sum over segments cannot be enumerated", "anchors": ["src/stcal/ramp_fitting/src/slope_fitter.c:1693-1727", "src/stcal/ramp_fitting/src/slope_fitter.c:2281-2537", "src/stcal/ramp_fitting/src/slope_fitter.c:3109-3168", "src/stcal/ramp_fitting/src/slope_fitter.c:3229-3511"]}
{"id": "C113", "title": "A combined S_REGION covers exactly the sky of its inputs", "statement": "Combining any list of S_REGION strings or vertex arrays gives a string of polygons that enclose every point an input encloses, and no other point unless a hole is filled; with an intersection footprint, every such point that lies within the footprint and no point outside it; no overlap with the footprint is reported as the documented ValueError.", "quantifier": "all lists of regions, all WCS transforms acting point by point, any shapely that computes unions and intersections of point sets", "why_tests_cant": "A test checks the vertices of a few unions; which points a region covers, and what happens for other vertex counts or geometry kinds, is not sampled by them", "anchors": ["src/stcal/alignment/resample_utils.py:11-170"]}
{"id": "C114", "title": "The S_REGION of an image uses the WCS bounding box and right ascensions in [0, 360)", "statement": "The footprint is computed for the bounding box of the WCS when there is one, else for the box of the given shape, which is then stored in the WCS; with neither an error is raised. An existing bounding box is never replaced. All right ascensions written lie in [0, 360) degrees.", "quantifier": "all WCS, shapes and footprints; the range over exact reals", "why_tests_cant": "A test uses one WCS; values next to 0 or 360 degrees are not met", "anchors": ["src/stcal/alignment/util.py:543-591", "src/stcal/alignment/util.py:612-634"]}
{"id": "C115", "title": "A constant added to all groups of an integration changes nothing in the least-squares fit", "statement": "Adding one constant to every group of an integration (a different constant for each integration if wanted) leaves every output of the least-squares fit of that pixel unchanged: slopes, DQ words, variances and errors, per integration and combined, also after the charge-loss recomputation. This needs every segment to have two or more groups and the integration's rate not to fall back on the first group; when a single group is all there is, the slope does contain the constant.", "quantifier": "for all pixels, flags, group counts, integrations, constants and metadata, over exact numbers with NaN", "why_tests_cant": "Tests fit a few ramps starting at a few values; they cannot cover every flag pattern, segment layout and pedestal.", "anchors": ["src/stcal/ramp_fitting/src/slope_fitter.c:3177-3511", "src/stcal/ramp_fitting/src/slope_fitter.c:2281-2510"]}
{"id": "C116", "title": "An unflagged NaN sample inside a ramp segment is fitted as a zero", "statement": "When a group strictly inside a segment of three or more groups is NaN but carries no flag, the least-squares fit of that segment returns exactly what it returns with 0 in place of the NaN, given the same median rate. The sample is therefore not left out: a ramp 0, 5, NaN, 15 gives 0.4 instead of 0.5 and no flag says so.", "quantifier": "for all number systems, pixels, metadata, segments of three or more groups and power functions", "why_tests_cant": "Tests use numeric ramps or flag their bad groups; none places an unflagged NaN in the middle of a segment.", "anchors": ["src/stcal/ramp_fitting/src/slope_fitter.c:3405-3446"]}
{"id": "C117", "title": "Running the saturation step twice", "statement": "Calling the saturation step a second time on the same data with the flags returned by the first call changes no flag when flags are not grown. When they are grown by n pixels the second call grows again: SATURATED is then set exactly within 2n pixels of a seed, so the step is not idempotent. The threshold and reference-DQ arrays that the first call leaves behind (it writes into them) give the same result as the originals.", "quantifier": "for all inputs, sizes, flags, read patterns and arithmetic", "why_tests_cant": "Tests call the step once; idempotence is a relation between two calls for every input.", "anchors": ["src/stcal/saturation/saturation.py:12-338"]}
{"id": "C118", "title": "Brighter data or a lower threshold never lose a saturation flag", "statement": "If every sample of an integration is at least as large, every effective threshold at most as large, no SATURATED flag is missing on input and the growing radius is at least as large, then every group flagged SATURATED before is flagged SATURATED again; and raising a sample never adds AD_FLOOR.", "quantifier": "for all pairs of inputs of the same shape, IEEE and exact arithmetic", "why_tests_cant": "A comparison of two calls for arbitrary inputs; tests use single inputs.", "anchors": ["src/stcal/saturation/saturation.py:114-150"]}
{"id": "C119", "title": "A constant added to all groups changes no jump flag and no rate", "statement": "Adding one constant to every group of a pixel in an integration (any constant for each pixel and integration) changes no group DQ flag set by the two-point jump detection, in any number of slices; no output of the optimal-weighting (read-pattern) fit, including its own jump search; and none of the differences the likelihood fit works on, provided the ZEROFRAME sample, if any, is raised by the same constant.", "quantifier": "for all data, flags, parameters, sizes, slice counts, read patterns and constants, over exact numbers (with NaN, except the optimal-weighting fit)", "why_tests_cant": "Tests use a few ramps with a few starting values; invariance under every pedestal and flag pattern is a statement about pairs of runs.", "anchors": ["src/stcal/jump/twopoint_difference.py:131-218", "src/stcal/ramp_fitting/ols_cas22/_ramp.pyx:237-358", "src/stcal/ramp_fitting/ols_cas22/_jump.pyx:140-390", "src/stcal/ramp_fitting/likely_fit.py:53-97"]}
{"id": "C120", "title": "The least-squares fit does not depend on the units of counts and of time", "statement": "If a pixel's samples, zero frame and dark rate are expressed in another unit of counts (with the gain changed to match, the read noise staying in electrons) and its times in another unit of time, then every fitted rate and uncertainty, per exposure and per integration, is the old one times the ratio of the units, every variance is the old one times the square of that ratio, and every DQ word is the same, as long as the same variances and uncertainties come out as zero in both units. The condition is needed: variances above 10^6 are written as zero whatever the unit, so the same signal can have rate 0 in one unit and 20 in another.", "quantifier": "all positive ratios of units, all pixels (any data incl. NaN, any flags, gain, read noise, dark rate, zero frame), any number of integrations and groups, with and without the CHARGELOSS recomputation", "why_tests_cant": "A test fixes one unit; a misplaced gain factor or a dimensionally wrong term gives plausible numbers for gain = 1, which is what tests use.", "anchors": ["src/stcal/ramp_fitting/src/slope_fitter.c:2566-2590", "src/stcal/ramp_fitting/src/slope_fitter.c:3775-3804", "src/stcal/ramp_fitting/src/slope_fitter.c:2281-2370"]}
{"id": "C121", "title": "Two-point-difference jump detection flags exactly the documented groups", "statement": "With enough data, the JUMP_DET bit of a group after jump detection is set exactly when: it was set before; or the selected method finds it (sigma clipping when the spacing is uniform and there are enough integrations or usable groups; otherwise one pass when every integration has more usable groups than the single-pass minimum; otherwise the iteration), where missing or saturated samples give no rate, the one-pass test is deviation from the pixel's median rate over its noise above the threshold and finite; or neighbour flagging is on, the group is neither saturated nor do-not-use and an edge neighbour found in the same group deviates between the two neighbour limits; or it is neither saturated nor do-not-use and follows within n1 (n2) groups a flagged group rising at least e1 (e2) counts above the median. Sigma clipping also removes the flag where every pixel of the group has a jump or is not to be used and the flag is the only one. No other bit changes, and the number returned counts the groups found by the method alone (-99 when there is not enough data, in which case nothing changes).", "quantifier": "all images, DQ arrays, read noise, thresholds, numbers of integrations, groups, rows and columns, any sigma-clipping and median function", "why_tests_cant": "Tests check chosen pixels under one setting; the interplay of method choice, masking, neighbours and after-jump groups is checked nowhere for all inputs.", "anchors": ["src/stcal/jump/twopoint_difference.py:11-76", "src/stcal/jump/twopoint_difference.py:131-218", "src/stcal/jump/twopoint_difference.py:353-488", "src/stcal/jump/twopoint_difference.py:491-683"]}
{"id": "C122", "title": "The result of the whole jump step depends on the exposure, not on the number of processes or the unit of counts", "statement": "Without snowball expansion the step changes no group flag but JUMP_DET, and the pixel flags gain NO_GAIN_VALUE and DO_NOT_USE exactly where the gain is not a positive number. The flags, the number of cosmic rays and the number of extended events do not depend on how many processes are asked for (when every slice agrees on the unusable groups, after-jump flagging and sigma clipping are off, and showers, if searched, see no group flags other than DO_NOT_USE, SATURATED and JUMP_DET). Nor do they depend on the unit of counts (data, read noise, gain and thresholds in DN converted). JUMP_DET is never left on a DO_NOT_USE or SATURATED group, and the number of extended events counts snowballs and showers. The step gives a result whenever the number of processes is set and not zero and the read pattern (or frames per group) fits.", "quantifier": "all exposures (any data incl. NaN, any DQ words, gains, read noise), all core requests and processor counts, any region finder that looks at the frame only, all positive ratios of units", "why_tests_cant": "Runs on several processes are not compared with one for all inputs, and the shared array that one process blanks in place and spawned processes do not is invisible to a test of either path.", "anchors": ["src/stcal/jump/jump.py:29-120", "src/stcal/jump/jump.py:894-941", "src/stcal/jump/jump_class.py:43-67", "src/stcal/jump/jump_class.py:196-225", "src/stcal/jump/twopoint_difference.py:156-170"]}
{"id": "C123", "title": "Jump detection does not depend on the unit of time; an evenly spaced read pattern is the same as none", "statement": "Multiplying every group time by the same positive factor changes no jump flag and no count. A read pattern whose groups have the same number of reads at the same offsets and start evenly spaced gives exactly the flags and counts that leaving the pattern out gives with that number of frames per group.", "quantifier": "all exposures, thresholds, methods (sigma clipping, single pass, iteration), neighbour and after-jump settings, numbers of processes, spacings and offsets; exact arithmetic with missing values; any median and sigma clipping that follow a change of unit", "why_tests_cant": "Tests use one read pattern and compare with stored numbers; a missing or doubled division by the group time is invisible when the group time is 1.", "anchors": ["src/stcal/jump/jump_class.py:43-67", "src/stcal/jump/twopoint_difference.py:179-202", "src/stcal/jump/twopoint_difference.py:277-350", "src/stcal/jump/twopoint_difference.py:558-601"]}
{"id": "C124", "title": "The whole likelihood ramp fit: which groups count, what is returned", "statement": "For every exposure of four or more groups with matching read times the likelihood ramp fit returns a result; it never clears a group flag and adds only JUMP_DET and, with the snowball search, SATURATED. Each integration, and without the snowball search each pixel, is fitted as if it were alone. Without the snowball search the groups fitted can be read off the flags: a difference is used exactly if both its groups were unflagged and the second still is afterwards; with it, no difference is used that ends on a group given JUMP_DET. An infinite threshold switches the jump search off. A ramp that is a straight line over its unflagged groups gets that line's slope with chi squared zero and no jump is added, whatever the thresholds, the noise and the other groups. Groups that the snowball search marks SATURATED are no longer used.", "quantifier": "all image sizes, numbers of integrations and groups, read patterns, thresholds, flags and snowball findings", "why_tests_cant": "Tests fit a few pixels and compare with stored numbers; they do not vary neighbouring pixels, integrations or the flags, nor relate the returned flags to the fit.", "anchors": ["src/stcal/ramp_fitting/likely_fit.py:18-169", "src/stcal/ramp_fitting/likely_fit.py:246-348"]}
{"id": "C125", "title": "The likelihood fit does not depend on the units of counts and of time", "statement": "Give likelihood ramp fitting the same exposure in other units: all counts (group data, ZEROFRAME, read noise) multiplied by k, the gain divided by k, all read times multiplied by t, the dark current multiplied by k/t. Then the call succeeds or fails as before, every returned group DQ word and every result DQ word is the same (so the same jumps are found at the same thresholds), every rate and uncertainty of every integration and of the combined image is k/t times what it was, every Poisson and read-noise variance is (k/t)^2 times what it was, and chi-squared is unchanged.", "quantifier": "for all exposures (any number of integrations, groups, pixels, any read pattern, flags, thresholds, with or without ZEROFRAME and snowball search, NaN anywhere) and all k, t > 0; exact arithmetic with missing values", "why_tests_cant": "Tests run one or two unit choices on a few ramps and compare with tolerances; the internal rescaling of the covariance and the jump thresholds would have to be tried for every unit and every ramp.", "anchors": ["src/stcal/ramp_fitting/likely_fit.py:18-169", "src/stcal/ramp_fitting/likely_fit.py:815-873", "src/stcal/ramp_fitting/likely_algo_classes.py:185-246"]}
{"id": "C126", "title": "The Casertano fit does not depend on the unit of time", "statement": "Fit the same resultants with the read time given in another unit (read_time multiplied by u). Every returned rate is 1/u of what it was, every variance (read noise, Poisson, total) is 1/u^2 of what it was, and the same resultants are flagged as jumps.", "quantifier": "for all ramp images with any read pattern whose resultants have different mean times, all DQ, read noises, NaN anywhere, and all u > 0; exact arithmetic with missing values", "why_tests_cant": "Tests use one read time; whether a change of unit moves a jump across the threshold depends on the rate, the noise and the read pattern of each ramp.", "anchors": ["src/stcal/ramp_fitting/ols_cas22/_ramp.pyx:237-358", "src/stcal/ramp_fitting/ols_cas22/_jump.pyx:203-221", "src/stcal/ramp_fitting/ols_cas22/_jump.pyx:299-390", "src/stcal/ramp_fitting/ols_cas22/_fit.pyx:97-236"]}
{"id": "C127", "title": "Resampled variances stay within the input variances", "statement": "When a variance array is resampled it is used only if the input has one of the data's own shape with at least one pixel. At an output pixel the resampled variance lies between the smallest and the largest input variance that reach it and never exceeds their weighted mean, times the square of the flux scale; a uniform variance is reproduced, variances c times as large come out c times as large, and the pixel is NaN when nothing reaches it or when a negative or missing variance does. In the finished product no combined variance is negative or larger than the largest contributing input variance (times the scales), and N equal exposures of one uniform variance give that variance divided by N.", "quantifier": "all arrays, shapes, coverages and weights, any number of exposures; drizzle assumed to average with positive weights; exact arithmetic with NaN", "why_tests_cant": "all variance images and coverages; inequality over square roots and weighted means", "anchors": ["src/stcal/resample/resample.py: Resample._check_var_array", "src/stcal/resample/resample.py: Resample._resample_one_variance_array", "src/stcal/resample/resample.py: Resample.resample_variance_arrays", "src/stcal/resample/resample.py: Resample.finalize_resample_variance"]}
{"id": "C128", "title": "Outlier flags follow the thresholds and not the unit, zero point or orientation of the images", "statement": "Raising a threshold (the SNR of flag_crs, either SNR or either scale of flag_resampled_crs) never adds an outlier when errors are not negative. Multiplying image, error, reference and background by a positive factor changes no flag. Adding one constant to image and reference, or a background to both the image and the background argument, changes no flag. Turning image, error and reference upside down, mirroring or transposing them turns, mirrors or transposes the flags. Pixels and errors may be NaN.", "quantifier": "all image sizes, pixel values, missing values, errors, thresholds, scales, backgrounds, positive factors and constants", "why_tests_cant": "a test compares flags of a few images; it cannot range over all images, factors, constants and thresholds", "anchors": ["src/stcal/outlier_detection/utils.py:89-148", "src/stcal/outlier_detection/utils.py:151-216"]}
{"id": "C129", "title": "Sky matching follows the unit of the images, and local sky levels follow their brightness", "statement": "If every image is given in another unit (all pixels and recorded sky levels multiplied by one positive factor), sky matching by any method, with or without subtraction, gives the same images in that unit: pixels and sky levels multiplied by the factor, the same images marked valid, and it raises on the same inputs. With the local method and subtraction, constants added to the images of the inputs (one constant per input) change no resulting pixel of an image whose sky could be measured, and raise its recorded sky by exactly that constant. Pixels may be NaN.", "quantifier": "all inputs, groups, masks, overlaps, factors, constants, methods and options; the sky statistic and the least-squares solver are arbitrary functions that follow the unit (or the constant)", "why_tests_cant": "a test matches a few images; it cannot range over all images, groups, footprints and factors", "anchors": ["src/stcal/skymatch/skymatch.py:222-329", "src/stcal/skymatch/skyimage.py:268-322"]}
{"id": "C130", "title": "The median of a stack is not moved by a minority of outliers", "statement": "The median image returned by the median computer, in memory or on disk with any buffer size, has at each pixel a value with at least half of the valid samples not above and at least half not below it, and is NaN exactly if every sample is. If more than half of the valid samples of a pixel lie in a range, so does the median. So, flagged against that median, a sample outside the range by more than snr times its error is an outlier, a sample inside the range is not one when the range is no wider than that, and a missing sample never is. The median does not depend on the order of the exposures and follows a change of unit or zero point.", "quantifier": "all numbers and sizes of exposures, all samples with any pattern of missing values, all ranges, thresholds and errors, all orders, all units", "why_tests_cant": "Robustness is a statement about every choice of a minority of arbitrarily wrong samples; tests insert one outlier.", "anchors": ["src/stcal/outlier_detection/median.py:21-138", "src/stcal/outlier_detection/utils.py:117-148"]}
{"id": "C131", "title": "Dark subtraction removes a linear dark exactly and acts on each pixel alone", "statement": "If the dark signal grows linearly with time, a science ramp recorded with any number of averaged and skipped frames (dark reference of single frames), or with the reference's own readout, is returned without its dark part, also for groups after the end of the reference. A signal added to the science data appears unchanged in the output, whatever the dark, and changes no flag. Correcting a cut-out, a turned image or a single pixel with the same part of the dark gives the same part of the result.", "quantifier": "all linear darks of two or more planes, 3-D or 4-D, all readout patterns, numbers of groups and integrations, source ramps, added signals and selections of pixels", "why_tests_cant": "The claim combines extrapolation, averaging and subtraction for every readout pattern; tests compare a few patterns.", "anchors": ["src/stcal/dark_current/dark_sub.py:49-433"]}
{"id": "C132", "title": "A cosmic ray in an otherwise steady ramp is flagged in exactly its group", "statement": "For a pixel that collects light at a constant rate, with every group usable, jump detection flags no group at all; if between two groups the pixel gains extra signal (in any integration, at any position, after any number of groups), the group that received it is flagged if and only if the extra rate exceeds the applicable threshold (ordinary, three-difference or two-difference) times the standard deviation of the rate from Poisson and read noise, and no other group of the pixel is flagged. The same is expected of a difference that is off downwards.", "quantifier": "All numbers of integrations, groups, rows and columns, all positions of the jump, rates, jump sizes, read noises, group times, thresholds; iterative method and single pass; exact arithmetic with missing values and the written-out numpy median", "why_tests_cant": "Tests inject one jump of one size at one group and compare flags; they cannot show that no position, size, ramp length or number of integrations makes the method flag the wrong group, and they do not try ties between differences", "anchors": ["src/stcal/jump/twopoint_difference.py:56-330", "src/stcal/jump/twopoint_difference.py:718-770"]}
{"id": "C133", "title": "A detected cosmic ray does not change the fitted rate", "statement": "Run jump detection and then the least-squares ramp fit with the resulting group flags on a pixel that collects light at a constant rate except for extra signal between two groups of one integration. If the extra signal is over the detection threshold (or absent), the slope of every integration and of the exposure is exactly the constant rate, wherever the jump is and however large it is.", "quantifier": "All exposures with three or more evenly spaced groups, any number of integrations, any position and size of the jump over the threshold, any rate, gain, read noise and thresholds, iterative method and single pass; exact arithmetic with missing values", "why_tests_cant": "The two steps are tested apart, each with its own hand-made flags; a mismatch of conventions between them (which of two groups carries the flag, which groups a segment takes) would bias every rate with a cosmic ray and show in neither suite", "anchors": ["src/stcal/jump/twopoint_difference.py:56-330", "src/stcal/ramp_fitting/src/slope_fitter.c:1276-1400", "src/stcal/ramp_fitting/src/slope_fitter.c:2553-3100"]}
{"id": "C134", "title": "What an unusable group holds does not matter", "statement": "Two exposures whose samples differ only in groups flagged DO_NOT_USE or SATURATED get the same result: jump detection returns the same flags and counts, and the least-squares fit and the Casertano fit return the same rates, variances, errors and flags. Calibration steps may leave anything in such groups (zeros, NaN, values past the linearity range), so no output may depend on it.", "quantifier": "all exposures, flag arrays, values, parameters and arithmetics", "why_tests_cant": "a test fills the bad groups with one or two particular values; independence of the content is a statement about all pairs of exposures and about every intermediate quantity (medians, signal-to-noise, segment endpoints) that reads the samples", "anchors": ["src/stcal/jump/twopoint_difference.py:100-260", "src/stcal/ramp_fitting/src/slope_fitter.c:2281-2480", "src/stcal/ramp_fitting/ols_cas22/_jump.pyx:300-560"]}
{"id": "C135", "title": "A cosmic ray found by the Casertano fit is the real one and leaves the rate exact", "statement": "In a noise-free ramp of constant rate with one upward step, the Casertano fit with jump detection either flags nothing or flags exactly one pair of neighbouring resultants, a pair containing the last one before the step; no other resultant is ever flagged. Whenever the returned flags separate all the steps of a ramp (any number, up or down), the reported rate is exactly the constant rate.", "quantifier": "All times in increasing order, numbers of reads, rates, step positions and sizes, input flags (flagged resultants may hold anything, NaN included), thresholds that are not negative; exact arithmetic with missing values", "why_tests_cant": "tests inject one jump and look for a flag near it; that no smooth stretch can ever be flagged because of a jump elsewhere, and that the rate is then exact, is about every spacing, size and position", "anchors": ["src/stcal/ramp_fitting/ols_cas22/_jump.pyx:203-390", "src/stcal/ramp_fitting/ols_cas22/_jump.pyx:393-595", "src/stcal/ramp_fitting/ols_cas22/_ramp.pyx:210-358"]}
{"id": "C136", "title": "An integration the likelihood fit could not fit leaves no trace in the exposure's result", "statement": "When some integrations of a pixel have no fit (NaN rate and variances) the combined rate, variances, error and chi squared of the exposure are those of the other integrations combined without it; with only one integration fitted they are that integration's own.", "quantifier": "Any number of integrations, any subset of them without a fit, any rates, non-negative Poisson and positive read-noise variances; exact arithmetic with missing values", "why_tests_cant": "a test has one fixed pattern of missing integrations; the two-pass weighting with NaN-skipping sums has to agree with the shorter exposure for every pattern and all values", "anchors": ["src/stcal/ramp_fitting/likely_fit.py:384-447"]}
{"id": "C137", "title": "More images never raise the read-noise variance of an inverse-variance weighted product", "statement": "With inverse-variance weights, adding further input images to a resampled product never raises the combined read-noise variance of a pixel, and lowers it exactly when one of the added images has a positive read-noise variance there. Wherever no input read-noise variance is zero, the inverse-variance product's read-noise variance is at most that of the same images combined with exposure-time weights. Neither holds in general for exposure-time weights or for the other variance arrays, where a noisier image can raise the variance.", "quantifier": "any number of images, any NaN pattern, any pixel scale ratio; exact arithmetic with NaN", "why_tests_cant": "inequalities over all image lists (Cauchy-Schwarz), relation between two runs", "anchors": ["src/stcal/resample/resample.py: Resample.resample_variance_arrays", "src/stcal/resample/resample.py: Resample.finalize_resample_variance"]}
{"id": "C138", "title": "Running jump detection on its own result", "statement": "Running the detection of the jump step a second time on its own flags changes nothing in the flags other than JUMP_DET, takes no jump away when sigma clipping is not used, and changes nothing at all when flags are not grown into neighbours or later groups, or when (single pass) neighbours are only flagged next to jumps that are over the detection threshold themselves. In every other configuration a second run changes nothing either.", "quantifier": "all exposures, flags, parameters and shapes; any arithmetic satisfying the laws of IEEE comparison, any median; one process", "why_tests_cant": "relation between two runs over all data, quantified over parameters", "anchors": ["src/stcal/jump/jump.py: detect_jumps_data", "src/stcal/jump/twopoint_difference.py: find_crs"]}
{"id": "C139", "title": "Combined variances follow the unit of the data and not that of time", "statement": "If the exposure and measurement times of all input images are given in another unit (all multiplied by one positive factor) and all variance arrays in another unit (all multiplied by one positive factor), the resampled product is built exactly as before and each of its combined variance arrays is multiplied by the second factor; pixels without a value stay without one. This holds for both kinds of weights and every variance array.", "quantifier": "any images, factors, NaN patterns and pixel scale ratios; exact arithmetic with NaN; the drizzled variances scale with the input variances (C127)", "why_tests_cant": "relation between two runs over all inputs and all factors", "anchors": ["src/stcal/resample/resample.py: Resample.resample_variance_arrays", "src/stcal/resample/resample.py: Resample.finalize_resample_variance"]}
{"id": "C140", "title": "The exposure rate lies between the rates of its integrations", "statement": "The rate that the least-squares fit reports for an exposure lies between the smallest and the largest rate of its fitted integrations, and its read-noise variance is at most that of every fitted integration, strictly smaller when there are two or more of them. When the fitted integrations have equal read-noise variances, the rate is the arithmetic mean of their rates and the read-noise variance is theirs divided by their number.", "quantifier": "any number of integrations, groups and segments; usable pixels with positive gain and non-zero read noise, without charge loss handling and without a fitted zero frame; positive read-noise variances; exact arithmetic", "why_tests_cant": "an order relation between two products for every exposure", "anchors": ["src/stcal/ramp_fitting/src/slope_fitter.c: ramp_fit_pixel"]}
