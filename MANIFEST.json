{
 "claims": [
  {
   "property": "C01",
   "status": "proved",
   "theorems": [
    "C01_saturated_exactly",
    "C01_returns",
    "C01_persists"
   ],
   "note": "any float arithmetic, any flags that are distinct single bits"
  },
  {
   "property": "C02",
   "status": "proved",
   "theorems": [
    "C02_dilation",
    "C02_small_images_fail"
   ],
   "note": "exact dilation when both dimensions are at least 2n; otherwise always an exception"
  },
  {
   "property": "C03",
   "status": "proved",
   "theorems": [
    "C03_only_adds",
    "C03_pixel_dq"
   ],
   "note": ""
  },
  {
   "property": "C04",
   "status": "proved",
   "theorems": [
    "C04_ad_floor"
   ],
   "note": ""
  },
  {
   "property": "C05",
   "status": "proved",
   "theorems": [
    "C05_no_sat_check",
    "C03_pixel_dq"
   ],
   "note": ""
  },
  {
   "property": "C06",
   "status": "proved",
   "theorems": [
    "C06_partial_saturation",
    "C06_no_read_pattern"
   ],
   "note": "numpy.mean of a read-pattern entry is an arbitrary function"
  },
  {
   "property": "C07",
   "status": "proved",
   "theorems": [
    "C07_bounded",
    "C07_at_least_one",
    "C07_unrecognised_is_one",
    "C07_recognised",
    "C07_zero_request_refuted",
    "C07_decimal"
   ],
   "note": "Strings are ASCII. A request of literally zero yields zero workers (C07_zero_request_refuted)."
  },
  {
   "property": "C08",
   "status": "partial",
   "theorems": [
    "C08_partition",
    "C08_slices_cover",
    "C08_slicing_transparent",
    "C08_suppression_off",
    "C08_suppression_lost",
    "C08_suppression_refuted",
    "C08_zero_slices_refuted"
   ],
   "note": "Transparency is proved for any per-row fit and any setting the slices copy. False as written: slices drop the one-group suppression setting (C08_suppression_lost), and C08_suppression_refuted exhibits a pixel of the OLS model that is NaN and DO_NOT_USE in one process but gets a ZEROFRAME slope in a slice."
  },
  {
   "property": "C09",
   "status": "proved",
   "theorems": [
    "C09_direct_subtraction",
    "C09_one_group_dark_raises"
   ],
   "note": "One arithmetic throughout: float32/float64 storage conversions are not modelled."
  },
  {
   "property": "C10",
   "status": "partial",
   "theorems": [
    "C10_averaged_dark",
    "C10_mean_of_available",
    "C10_single_frame_exactly",
    "C10_coarse_dark_refuted",
    "C10_segment_refuted"
   ],
   "note": "Exact plane criterion proved in both directions (complete window iff enough planes; single-frame call succeeds iff every window starts inside the dark). Partial because the claim is false for dark integrations beyond the science integration count in late segments (C10_segment_refuted), which the positive theorems exclude."
  },
  {
   "property": "C100",
   "status": "partial",
   "theorems": [
    "C100_output_area",
    "C100_given_scale",
    "C100_ratio",
    "C100_input_area",
    "C100_product_ratio",
    "C100_fallback_refuted",
    "C100_intensity",
    "C100_spectral_refuted"
   ],
   "note": "Exact arithmetic. Two clauses are false of the code: the mean area does not fall back to the nominal one (C100_fallback_refuted), and spectral flux densities without a given ratio raise (C100_spectral_refuted)."
  },
  {
   "property": "C101",
   "status": "partial",
   "theorems": [
    "C101_far_edge",
    "C101_pixel_edges",
    "C101_pixmap",
    "C101_centre_refuted"
   ],
   "note": "Exact arithmetic. The last clause is false: C101_centre_refuted (double precision) has a pixel whose centre is in the box but not in the image."
  },
  {
   "property": "C102",
   "status": "proved",
   "theorems": [
    "C102_level",
    "C102_exact",
    "C102_once"
   ],
   "note": "C102_level in exact arithmetic; the others in any."
  },
  {
   "property": "C103",
   "status": "proved",
   "theorems": [
    "C103_positions",
    "C103_missing"
   ],
   "note": "drizzle's blot_image is a parameter; C103_missing assumes it fills positions more than half a pixel below zero."
  },
  {
   "property": "C104",
   "status": "partial",
   "theorems": [
    "C104_only_rnoise",
    "C104_unflagged",
    "C104_unflagged_pixel",
    "C104_rnoise",
    "C104_rnoise_real",
    "C104_exposure",
    "C104_not_dnu_refuted",
    "C104_isolated_refuted"
   ],
   "note": "Proved when two neighbouring groups are usable once the flags are removed, the first group is not saturated, the pixel is usable, no ZEROFRAME is in play and both flag bits are below 8. Refuted when only isolated groups remain (the one-group time of the flagged ramp is used), and for a group flagged CHARGELOSS alone (exclusive-or sets DO_NOT_USE on it)."
  },
  {
   "property": "C105",
   "status": "partial",
   "theorems": [
    "C105_names",
    "C105_case",
    "C105_likely",
    "C105_ols",
    "C105_short_likely",
    "C105_chargeloss_refuted"
   ],
   "note": "Proved: case-insensitive names, which fit runs, and equality with OLS_C for short exposures in which no group carries CHARGELOSS. The equality as stated is false when a group does (C105_chargeloss_refuted): the likelihood path is not told that flag, so the read-noise variance differs. The likelihood fit is a parameter here (its own properties: C37-C40, C72-C76, C107, C109)."
  },
  {
   "property": "C106",
   "status": "partial",
   "theorems": [
    "C106_names_needed",
    "C106_documented_refuted"
   ],
   "note": "C106_names_needed gives exactly the names that are needed: the five documented ones, PERSISTENCE, and CHARGELOSS for OLS_C. The statement is therefore false: C106_documented_refuted shows a dictionary with all documented names with which every call raises."
  },
  {
   "property": "C107",
   "status": "partial",
   "theorems": [
    "C107_first_group",
    "C107_recovers",
    "C107_masks",
    "C107_readtimes",
    "C107_unusable_refuted"
   ],
   "note": "Proved over exact reals: the split, recovery of the rate and zero chi squared of a linear ramp, the masks, and the default read times (nframes equal to the number of reads in the first group is a hypothesis of the recovery theorem when the ZEROFRAME is used). The clause about unusable samples is false: C107_unusable_refuted, a ZEROFRAME sample of 0 is used like any other."
  },
  {
   "property": "C108",
   "status": "partial",
   "theorems": [
    "C108_own_pixel",
    "C108_all_saturated_refuted",
    "C108_miri_refuted",
    "C108_no_result"
   ],
   "note": "Proved when both calls return a result, the instrument is not MIRI, and DO_NOT_USE and CHARGELOSS are different bits. False otherwise: if every pixel is saturated in its first group nothing is returned although a ZEROFRAME would give the pixel a rate (C108_all_saturated_refuted); for MIRI the first or last group is dropped only if the whole image is flagged, which changes a pixel's DQ (C108_miri_refuted). C108_no_result: for other instruments nothing is returned exactly when every pixel is saturated in the first group of every integration."
  },
  {
   "property": "C109",
   "status": "partial",
   "theorems": [
    "C109_no_difference",
    "C109_flagged",
    "C109_unflagged_refuted",
    "C109_error_refuted"
   ],
   "note": "Proved: rate, both variances and chi squared are NaN and the error is not finite whenever every difference is masked, in IEEE single, double and exact arithmetic with NaN; all groups flagged DO_NOT_USE or SATURATED implies this. False: DO_NOT_USE is not set when usable groups are isolated (C109_unflagged_refuted), and the error is infinite rather than NaN (C109_error_refuted)."
  },
  {
   "property": "C11",
   "status": "proved",
   "theorems": [
    "C11_skip_and_dq"
   ],
   "note": ""
  },
  {
   "property": "C110",
   "status": "partial",
   "theorems": [
    "C110_pixelwise",
    "C110_noise",
    "C110_unit",
    "C110_single_ramp",
    "C110_dq_words",
    "C110_single_refuted",
    "C110_unit_refuted"
   ],
   "note": "Proved for arrays of two or more axes with a matching read noise. False for a single ramp: the call returns only the first entry, the intercept 0, and the rate is lost (C110_single_ramp, C110_single_refuted). False for units: data are converted to electrons but the rate keeps the input unit unconverted (C110_unit, C110_unit_refuted). Read noise or DQ arrays of the wrong size are not covered (the code reads them without bounds checks)."
  },
  {
   "property": "C111",
   "status": "proved",
   "theorems": [
    "C111_fewer_jumps",
    "C111_cas22",
    "C111_cas22_dq",
    "C111_cas22_intercept"
   ],
   "note": "any arithmetic with the comparison laws (IEEE of every precision included). Two-point difference: one process, sigma clipping not used (that search is astropy's). Casertano+22: thresholds compared as computed; C111_cas22_intercept: raising the intercept does so in exact arithmetic"
  },
  {
   "property": "C112",
   "status": "proved",
   "theorems": [
    "C112_rate",
    "C112_mean",
    "C112_poisson",
    "C112_mean_nan",
    "C112_poisson_nan"
   ],
   "note": "C112_rate: any IEEE-like arithmetic whose NaN compares as usual, two or more groups, not the one-group/ZEROFRAME replacement; counting rates of usable pairs must be numbers. C112_mean: over the reals, for a pixel without flags. C112_poisson: over the reals, usable pixel, no charge-migration input, first-frame replacement not in use. OnProps: the same with missing values (a number type with NaN): the median leaves NaN out, groups outside the fitted segments may hold NaN."
  },
  {
   "property": "C113",
   "status": "partial",
   "theorems": [
    "C113_region",
    "C113_no_overlap",
    "C113_cut_raises",
    "C113_empty_raises",
    "C113_ragged_refuted",
    "C113_several_polygons_refuted"
   ],
   "note": "When the call succeeds the region is the union, holes filled, cut to the footprint, given a shapely contract and a simplification that keeps the enclosed set (its tolerances are not proved harmless). The statement as written fails: regions with different vertex counts raise, a footprint that cuts a region in several pieces or only touches it raises AttributeError, an empty list raises, and a string of several polygons is read as one polygon."
  },
  {
   "property": "C114",
   "status": "partial",
   "theorems": [
    "C114_box",
    "C114_neither",
    "C114_ra_range",
    "C114_ra_360_refuted"
   ],
   "note": "Box choice and error proved. Right ascensions are printed in [0, 360]: 360.000000000 is printed for a value within 5e-10 below 360, so the half-open claim is false."
  },
  {
   "property": "C115",
   "status": "proved",
   "theorems": [
    "C115_pedestal",
    "C115_one_group_refuted"
   ],
   "note": "Over exact numbers with NaN (RN), so nothing is said about rounding. Assumes numeric data in range, a non-zero group time, all segments of two or more groups and a rate taken from differences (or no good first group); C115_one_group_refuted shows in binary64 that the one-group case depends on the constant. The pixel must not take the zero-frame or suppressed one-group path (hypothesis ordinary)."
  },
  {
   "property": "C116",
   "status": "proved",
   "theorems": [
    "C116_nan_is_zero",
    "C116_nan_ignored_refuted"
   ],
   "note": "Segment level, for every number system, with the median rate a parameter (the rate itself skips the NaN differences). The refutation is a whole-pixel binary64 witness with weights of power 0."
  },
  {
   "property": "C117",
   "status": "proved",
   "theorems": [
    "C117_idempotent",
    "C117_grows_again",
    "C117_references",
    "C117_idempotent_refuted"
   ],
   "note": "Any arithmetic; flags distinct bits; both calls return. C117_grows_again is about SATURATED only; with growing and a read pattern nothing is said about DO_NOT_USE after the second call. C117_references uses functional extensionality."
  },
  {
   "property": "C118",
   "status": "proved",
   "theorems": [
    "C118_brighter",
    "C118_floor"
   ],
   "note": "For every arithmetic satisfying the comparison laws of FLaws (IEEE formats and exact reals). NaN samples or thresholds do not satisfy the <= hypotheses."
  },
  {
   "property": "C119",
   "status": "proved",
   "theorems": [
    "C119_find_crs",
    "C119_detection",
    "C119_cas22_pixel",
    "C119_cas22",
    "C119_likely",
    "C119_rounding_refuted",
    "C119_cas22_nan"
   ],
   "note": "Exact arithmetic; C119_rounding_refuted shows that in binary64 a very large constant hides jumps. The jump part covers the detection stage (data already in electrons); the snowball and shower stages are not part of it. For the likelihood fit the statement is about its input (differences, flags, read times), on which all its outputs depend. C119_cas22_nan states the Casertano part over exact numbers with NaN, where single-resultant fits and missing second differences are NaN as in the code (C119_cas22 is over the reals, where NaN is represented by 0)."
  },
  {
   "property": "C12",
   "status": "proved",
   "theorems": [
    "C12_polynomial",
    "C12_exact_polynomial",
    "C12_zeroframe"
   ],
   "note": "C12_polynomial holds in any arithmetic (nested form); C12_exact_polynomial identifies it with the power sum over the reals."
  },
  {
   "property": "C120",
   "status": "proved",
   "theorems": [
    "C120_units",
    "C120_chargeloss",
    "C120_cut_refuted"
   ],
   "note": "Over exact reals with NaN (RN), for every pixel, k, t > 0. Condition on the outputs: the same variance/uncertainty entries are zero in both units (C120_chargeloss: also before the recomputation). C120_cut_refuted (binary64): without it the rate 20 becomes 0 because of the fixed cut at 10^6."
  },
  {
   "property": "C121",
   "status": "proved",
   "theorems": [
    "C121_find_crs",
    "C121_count"
   ],
   "note": "Over any arithmetic with the order laws of FLaws (B64 is an instance); the median and astropy sigma_clip mask are arbitrary functions; thresholds are not NaN and not negative (thresholds_ok)."
  },
  {
   "property": "C122",
   "status": "partial",
   "theorems": [
    "C122_flags",
    "C122_cores",
    "C122_units",
    "C122_defined",
    "C122_cores_showers_refuted",
    "C122_skipped_count_refuted",
    "C122_events_refuted",
    "C122_jump_on_dnu_refuted",
    "C122_amplitude_refuted",
    "C122_groups"
   ],
   "note": "Proved: which flags change, independence of the number of processes under the stated conditions, unit independence when max_shower_amplitude is left unconverted (exact arithmetic with NaN), and when there is a result (3 or more groups). False as stated: with showers a group carrying DO_NOT_USE plus another flag is blanked in one process only (C122_cores_showers_refuted); with too few groups the count is -99 per process; with both searches on, only the showers are reported; a shower leaves JUMP_DET on a DO_NOT_USE group; max_shower_amplitude is documented in DN/group but compared with electrons. The region finders are parameters. C122_groups: in one process without snowballs and showers JUMP_DET afterwards is exactly the specification of C121 in electrons with the thresholds asked for, on usable groups."
  },
  {
   "property": "C123",
   "status": "proved",
   "theorems": [
    "C123_time_unit",
    "C123_even_pattern"
   ],
   "note": "Exact arithmetic with a missing value (RNBase). The median and the sigma clipping are parameters assumed to follow a change of unit; C123_example gives instances."
  },
  {
   "property": "C124",
   "status": "partial",
   "theorems": [
    "C124_only_adds",
    "C124_fitted",
    "C124_snowballs_left_out",
    "C124_integrations_alone",
    "C124_pixels_alone",
    "C124_defined",
    "C124_threshold_off",
    "C124_line",
    "C124_line_zeroframe",
    "C124_saturated_fitted_refuted"
   ],
   "note": "Partial: the last sentence is false (C124_saturated_fitted_refuted: a clean pixel covered by a snowball core is fitted with the groups its returned flags call SATURATED). The straight-line sentence is C124_line / C124_line_zeroframe, in exact arithmetic with missing values (RN: None for NaN and infinities), for finite data, positive gain, non-zero read noise, non-negative dark current and at least one difference left. C124_pixels_alone assumes x*1+0=x for all numbers, true of RN, not of signed zeros; C124_threshold_off is for doubles. Read times not matching the groups are C40."
  },
  {
   "property": "C125",
   "status": "proved",
   "theorems": [
    "C125_units"
   ],
   "note": "Exact arithmetic with missing values (RN: None for NaN and infinities; fnan is None, so the NaN sentinel of the jump search is faithful). The external functions are assumed to follow a change of unit: the i-th root of a^i x is a times that of x, medians of scaled lists are scaled medians, storing as float32 commutes with scaling (true of exact numbers; in binary arithmetic only for powers of two without overflow). The example instantiates them with the real root and np.nanmedian."
  },
  {
   "property": "C126",
   "status": "partial",
   "theorems": [
    "C126_pixel",
    "C126_time",
    "C126_flat_threshold",
    "C126_threshold_refuted"
   ],
   "note": "Proved (exact arithmetic with NaN) without jump detection, and with it when the threshold has no slope-dependent part (C126_flat_threshold) or more generally gives the same value in both units. False with the slope-dependent threshold of the code: it takes the logarithm of the rate, clipped to 1..10000 in whatever unit the rate has, so the same exposure is flagged in one unit and not in the other (C126_threshold_refuted, binary64)."
  },
  {
   "property": "C127",
   "status": "proved",
   "theorems": [
    "C127_used",
    "C127_bounds",
    "C127_uniform",
    "C127_missing",
    "C127_scales",
    "C127_product_bounds",
    "C127_product_uniform"
   ],
   "note": "Drizzle (another package) is a parameter; the theorems assume it shows the scale times a weighted mean with positive weights of the covering pixels, NaN when there is none or one of them is NaN. C127_used needs no such assumption and holds for every number type. The rest is exact arithmetic with a missing value; float32 rounding is not modelled."
  },
  {
   "property": "C128",
   "status": "proved",
   "theorems": [
    "C128_threshold",
    "C128_resampled_threshold",
    "C128_unit",
    "C128_resampled_unit",
    "C128_zero",
    "C128_resampled_zero",
    "C128_upside_down",
    "C128_mirrored",
    "C128_transposed"
   ],
   "note": "Exact arithmetic with a missing value (RN): NaN is modelled, infinities and rounding are not; with infinities the derivative image is not symmetric (C17_infinite_pixel_refuted)."
  },
  {
   "property": "C129",
   "status": "proved",
   "theorems": [
    "C129_unit",
    "C129_local"
   ],
   "note": "Exact numbers with a missing value (RN). Footprint geometry, the sky statistic and the solver are parameters, assumed to follow the unit (or the added constant); statistics with absolute lower/upper limits do not. A group's own sky level must be a number (C129_local)."
  },
  {
   "property": "C13",
   "status": "partial",
   "theorems": [
    "C13_flags",
    "C13_raises_exactly",
    "C13_passthrough_single",
    "C13_passthrough_double",
    "C13_readlevel_passthrough",
    "C13_reuse_same_values",
    "C13_infinite_sample_refuted",
    "C13_reuse_loses_flag_refuted",
    "C13_inverse_only_refuted"
   ],
   "note": "Flags are exact for one call. Data pass-through is proved for finite binary32/binary64 samples on the plain path and in exact arithmetic on the read-level path (no additional correction, no cap). The claim fails for infinite samples, for pixels unusable only in the inverse coefficients, and the flag is lost when the same coefficient array is reused."
  },
  {
   "property": "C130",
   "status": "proved",
   "theorems": [
    "C130_median",
    "C130_majority",
    "C130_detects",
    "C130_keeps",
    "C130_missing",
    "C130_order",
    "C130_unit",
    "C130_follows_unit"
   ],
   "note": "Exact arithmetic with missing values (None is NaN; infinite samples not represented). np.nanmedian is written out in NmModel (sort, middle or mean of the two middle values) instead of being a parameter; stacks are those the computer accepts (see C16). The outlier theorems are for flag_crs with the median image itself as reference. C130_half shows that exactly half is not enough. C130_follows_unit: np.median meets the assumption on the median in C120/C122/C123."
  },
  {
   "property": "C131",
   "status": "proved",
   "theorems": [
    "C131_matching",
    "C131_frames",
    "C131_additive",
    "C131_cutout"
   ],
   "note": "C131_matching, C131_frames and C131_additive in exact arithmetic with missing values; C131_cutout for any arithmetic. For a 4-D dark with another readout the dark integration used must be below the number of science integrations (otherwise the code subtracts zeros, C10_segment_refuted). References that are themselves averaged but read out differently are excluded (C10_coarse_dark_refuted)."
  },
  {
   "property": "C132",
   "status": "partial",
   "theorems": [
    "C132_steady",
    "C132_iterative",
    "C132_single_pass",
    "C132_dip_refuted"
   ],
   "note": "Upward jumps and steady ramps are proved for all shapes, in exact arithmetic with missing values, from the data of the pixel through find_crs (neighbour and after-jump flags off: C18, C19 describe them; sigma clipping excluded). The downward part is false: with four or more differences the iteration leaves out every difference equal to the largest, so one low difference among equal ones becomes the typical difference and all the ordinary groups are flagged (C132_dip_refuted, binary64). In the single pass the two-difference case is excluded (median of two)."
  },
  {
   "property": "C133",
   "status": "proved",
   "theorems": [
    "C133_rate_unchanged"
   ],
   "note": "Composition of JumpModel.find_crs and OlsModel.ols_pixel through the group flags. Pixel without flags before, neighbour and after-jump flags off, sigma clipping excluded, no ZEROFRAME, read-noise variance below the code's 1e6 limit (2 (rn/tg)^2/gain^2 < 1e6); powf any function with non-negative values and pow 1 p = 1."
  },
  {
   "property": "C134",
   "status": "partial",
   "theorems": [
    "C134_jump",
    "C134_least_squares",
    "C134_casertano",
    "C134_one_group_refuted"
   ],
   "note": "Full equality of outputs in any arithmetic for the two-point difference search (with any median, sigma-clip and crowding functions), for the least-squares fit with two or more groups, and, in any arithmetic meeting FLaws, for the Casertano fit (bad means any nonzero flag). False for the least-squares fit of one-group integrations: C134_one_group_refuted shows the count of a DO_NOT_USE integration entering the Poisson variance of another. The likelihood fit is under C38 (false when an unusable difference is NaN, C38_masked_nan_refuted). Snowball and shower detection, which smooth the data, are not covered."
  },
  {
   "property": "C135",
   "status": "proved",
   "theorems": [
    "C135_one_step",
    "C135_rate_when_found",
    "C135_drop_refuted"
   ],
   "note": "C135_one_step is the dichotomy for one upward step; C135_rate_when_found the exact rate for any steps separated by the flags returned. The restriction to upward steps is needed: C135_drop_refuted gives a drop of counts that leads to flags elsewhere and a negative rate. When the step is over the threshold is C68."
  },
  {
   "property": "C136",
   "status": "partial",
   "theorems": [
    "C136_missing",
    "C136_bounds",
    "C136_one",
    "C136_chisq_missing"
   ],
   "note": "Rate, both variances and error: proved for two or more fitted integrations (C136_missing, and the bounds of C76 carry over, C136_bounds) and for one with a rate other than zero (C136_one; at rate exactly zero its Poisson variance is replaced by zero). Chi squared: the claim is false, C136_chisq_missing shows that it is missing for the exposure as soon as one integration has no fit. The median is any function that skips missing values."
  },
  {
   "property": "C137",
   "status": "proved",
   "theorems": [
    "C137_more",
    "C137_best",
    "C137_exposure_refuted",
    "C137_poisson_refuted"
   ],
   "note": "The two runs use the same pixel scale ratio (given, or the first one determined). C137_more: the read-noise array under inverse-variance weights; C137_best: comparison with exposure-time weights where no input read-noise variance is exactly zero at the pixel. The two _refuted theorems are the witnesses (binary64) for the last sentence of the statement. What drizzle returns for an input's variance is an input of the model."
  },
  {
   "property": "C138",
   "status": "partial",
   "theorems": [
    "C138_keeps",
    "C138_same",
    "C138_neighbours",
    "C138_neighbours_refuted",
    "C138_after_jump_refuted",
    "C138_clipping_refuted",
    "C138_iteration_refuted"
   ],
   "note": "Proved for the two-point search with one slice, followed by the removal of jumps on unusable groups (no large-event flagging). The last sentence is false in each of the remaining configurations, with binary64 witnesses: growth into neighbours from below the detection threshold, growth into neighbours with the iterative search, growth into later groups (these flag more on the second run), and sigma clipping, where the second run can lose the jump because a group in which every pixel has a jump is cleared."
  },
  {
   "property": "C139",
   "status": "proved",
   "theorems": [
    "C139_units",
    "C139_accepts"
   ],
   "note": "Exact arithmetic with a missing value. The arrays drizzle returns for the input variances are inputs here; that they scale with the input variances is C127_scales."
  },
  {
   "property": "C14",
   "status": "proved",
   "theorems": [
    "C14_tile_height",
    "C14_rows_independent",
    "C14_saturated_unchanged"
   ],
   "note": "Assumes the additional-correction callable works row by row, which its documentation demands."
  },
  {
   "property": "C140",
   "status": "proved",
   "theorems": [
    "C140_between",
    "C140_equal"
   ],
   "note": "Exact real arithmetic, from C70. Hypotheses: distinct flag bits, pixel not flagged unusable or saturated, no original flag array (charge loss), at least one fitted integration, positive read-noise variance in each fitted integration and in the exposure."
  },
  {
   "property": "C15",
   "status": "proved",
   "theorems": [
    "C15_disk_median_of_appended",
    "C15_disk_equals_memory",
    "C15_sections",
    "C15_used_once"
   ],
   "note": "For every image count, shape and buffer size. nanmedian of one pixel's samples is an arbitrary function; byte encoding of items and dtype conversion not modelled; the float divisions sizing the sections are exact integer divisions (sizes below 2^53)."
  },
  {
   "property": "C16",
   "status": "partial",
   "theorems": [
    "C16_acceptance_limit",
    "C16_default_buffer",
    "C16_large_buffer_accepts_one",
    "C16_accepts_n_refuted",
    "C16_accepts_n_default_refuted",
    "C16_rejects_extra_refuted"
   ],
   "note": "The statement is false: both halves are refuted by witnesses. Proved instead: images are accepted exactly up to the number of sections; with the default buffer N frames are accepted iff there are at least N rows; a buffer holding the whole stack accepts one image only."
  },
  {
   "property": "C17",
   "status": "proved",
   "theorems": [
    "C17_flag_crs",
    "C17_flag_crs_never_nan",
    "C17_flag_crs_exact",
    "C17_abs_deriv",
    "C17_abs_deriv_nan",
    "C17_abs_deriv_exact",
    "C17_infinite_error_refuted",
    "C17_infinite_pixel_refuted"
   ],
   "note": "For any arithmetic satisfying the comparison and NaN laws, proved for IEEE formats and for the reals. Outside the quantifier (infinite errors or differences) the claim fails; witnesses given."
  },
  {
   "property": "C18",
   "status": "proved",
   "theorems": [
    "C18_propagate",
    "C18_strategy_irrelevant",
    "C18_after_jump"
   ],
   "note": "Whichever strategy the crowding test (an oracle) selects."
  },
  {
   "property": "C19",
   "status": "proved",
   "theorems": [
    "C19_four_neighbours",
    "C19_border_rows"
   ],
   "note": "Ratio test over any arithmetic satisfying FLaws."
  },
  {
   "property": "C20",
   "status": "proved",
   "theorems": [
    "C20_no_jump_on_unusable",
    "C20_only_jump_changes"
   ],
   "note": "Detection stage only (jump.py lines 86-103); large-event and shower expansion come later, see C24/C25."
  },
  {
   "property": "C21",
   "status": "proved",
   "theorems": [
    "C21_rows_once_in_order",
    "C21_reassembly",
    "C21_multi_equals_single",
    "C21_minimum_groups_refuted",
    "C21_after_jump_refuted",
    "C21_slice_skip_refuted",
    "C21_sigma_clip_refuted"
   ],
   "note": "Equality proved when no after-jump window, no sigma clipping, min groups 3 and slices that take the same skip/algorithm decision; each excluded case is refuted by a witness."
  },
  {
   "property": "C22",
   "status": "proved",
   "theorems": [
    "C22_skip_iff",
    "C22_too_few_groups",
    "C22_group_count_refuted"
   ],
   "note": "Decision characterised for all inputs; group counting over several integrations refuted."
  },
  {
   "property": "C23",
   "status": "proved",
   "theorems": [
    "C23_iterative_search",
    "C23_clip",
    "C23_terminates",
    "C23_stops_for_good",
    "C23_never_readmitted",
    "C23_one_per_round_refuted"
   ],
   "note": "Median is an oracle on the list of in-use differences; thresholds assumed not negative."
  },
  {
   "property": "C24",
   "status": "partial",
   "theorems": [
    "C24_ellipse_in_subimage",
    "C24_subimage_exact",
    "C24_expansion",
    "C24_extend_exact",
    "C24_defined",
    "C24_two_groups_fail",
    "C24_jump_only_inside",
    "C24_snowball_covered",
    "C24_saturation",
    "C24_keeps_flags_refuted",
    "C24_every_group_count_refuted",
    "C24_core_size"
   ],
   "note": "Proved for all inputs: where JUMP is added, the drawing, axis expansion and saturation growth. As written the statement is false: growing a saturated core replaces the whole flag word (clears JUMP and DO_NOT_USE), and two-group ramps raise an error; both refutations are proved. Region finding, ellipse rasterisation and the inside-ellipse test are external oracles; C24_ellipse_in_subimage shows over the reals that the rasterisation assumption holds for the ellipse equation."
  },
  {
   "property": "C25",
   "status": "proved",
   "theorems": [
    "C25_persistence",
    "C25_integrations_independent"
   ],
   "note": "Exact set of groups and pixels. The region finder and the ellipse rasterisation are external oracles."
  },
  {
   "property": "C26",
   "status": "proved",
   "theorems": [
    "C26_runs",
    "C26_maximal_runs",
    "C26_time_order"
   ],
   "note": "init_ramps; DQ words of any value, any length."
  },
  {
   "property": "C27",
   "status": "proved",
   "theorems": [
    "C27_accounts",
    "C27_no_detection"
   ],
   "note": "Termination is proved for the fuel n (number of resultants); the generic loop result for arbitrary detectors returning in-range indices is split_total in Cas22Proofs.v, and the code's detector is shown to be in range under the IEEE comparison laws."
  },
  {
   "property": "C28",
   "status": "proved",
   "theorems": [
    "C28_estimator",
    "C28_linear_ramp",
    "C28_shift",
    "C28_linear_pixel",
    "C28_zero_read_noise_refuted",
    "C28_linear_pixel_nan"
   ],
   "note": "Exact real arithmetic; pow assumed non-negative with pow(1,p)=1 (c_pow meets this). With zero read noise the pixel-level statement fails: rate 0 is reported (refutation). C28_linear_pixel_nan is the pixel statement with NaN as a value of its own: flagged resultants may be NaN and a single-resultant ramp has a NaN fit."
  },
  {
   "property": "C29",
   "status": "proved",
   "theorems": [
    "C29_table",
    "C29_table_real",
    "C29_ramp_exponent"
   ],
   "note": "Single precision and real numbers. C29_ramp_exponent (exact reals): which exponent a ramp gets, from its rise against read plus photon noise."
  },
  {
   "property": "C30",
   "status": "proved",
   "theorems": [
    "C30_segments",
    "C30_runs_exist",
    "C30_ordered_disjoint",
    "C30_members",
    "C30_saturated_first"
   ],
   "note": "PERSISTENCE does not make a group unusable. The optional-results table is not modelled."
  },
  {
   "property": "C31",
   "status": "proved",
   "theorems": [
    "C31_integration_slope",
    "C31_exposure_slope",
    "C31_large_variance_refuted",
    "C31_nan"
   ],
   "note": "Exact arithmetic; powf is any function with nonnegative values and pow 1 p = 1. Without the bound on the read-noise variance the claim is false (C31_large_variance_refuted). C31_nan: the same with NaN as a value of its own; groups outside the segments may be NaN."
  },
  {
   "property": "C32",
   "status": "proved",
   "theorems": [
    "C32_integration_flags",
    "C32_exposure_flags",
    "C32_compress_groups",
    "C32_compress_integrations",
    "C32_zeroframe_saturation_refuted"
   ],
   "note": "Any arithmetic. The refuted theorem shows why the single-group ZEROFRAME exception is in the statement."
  },
  {
   "property": "C33",
   "status": "partial",
   "theorems": [
    "C33_integration_invalid",
    "C33_exposure_invalid",
    "C33_other_flags",
    "C33_all_jump_refuted",
    "C33_chargeloss_variance_refuted"
   ],
   "note": "Proved when the groups are unusable because of DO_NOT_USE/SATURATED and no CHARGELOSS bookkeeping is done. False otherwise: C33_other_flags characterises the ramps reported as a measured zero, e.g. all groups JUMP_DET."
  },
  {
   "property": "C34",
   "status": "proved",
   "theorems": [
    "C34_suppression_exact",
    "C34_suppression_not_applied",
    "C34_one_group_exposure"
   ],
   "note": "DQ words are 8 bit, as the code assumes. Exposures of a single group are exempt (C34_one_group_exposure)."
  },
  {
   "property": "C35",
   "status": "proved",
   "theorems": [
    "C35_discard",
    "C35_jump_cleared",
    "C35_refused_but_changed_refuted",
    "C35_fit"
   ],
   "note": "JUMP_DET is cleared in the caller's array also when the fit is refused. C35_fit carries this to the entry point: the MIRI exposure is fitted exactly like an ordinary one without those groups (no suppression of one-group ramps, no CHARGELOSS anywhere)."
  },
  {
   "property": "C36",
   "status": "partial",
   "theorems": [
    "C36_fitted_as_native",
    "C36_gain_readnoise_restored",
    "C36_native_untouched",
    "C36_data_survives_iff",
    "C36_data_left_swapped_refuted",
    "C36_zeroframe_misread_refuted"
   ],
   "note": "Only gain and read noise are restored; data, dark, group and pixel DQ stay swapped, ZEROFRAME and the original group DQ are read raw."
  },
  {
   "property": "C37",
   "status": "proved",
   "theorems": [
    "C37_gls",
    "C37_any_covariance",
    "C37_best_linear_unbiased",
    "C37_minimises_chisq"
   ],
   "note": "Exact reals. End to end from the read times (C37_gls) and for any positive definite tridiagonal covariance (C37_any_covariance)."
  },
  {
   "property": "C38",
   "status": "proved",
   "theorems": [
    "C38_constant_rate",
    "C38_masked_ignored",
    "C38_masked_nan_refuted"
   ],
   "note": "Exact reals; in floating point a NaN in a masked difference poisons the fit (C38_masked_nan_refuted) because masking multiplies by zero."
  },
  {
   "property": "C39",
   "status": "proved",
   "theorems": [
    "C39_only_removes",
    "C39_monotone",
    "C39_three_left",
    "C39_rounds_suffice",
    "C39_fit_filled",
    "C39_pixel_alone",
    "C39_jump_flags",
    "C39_wide_flags_refuted"
   ],
   "note": "For every number system and every fit; C39_rounds_suffice needs the fit's masked entries to bring no improvement, which C39_fit_filled shows for the code's own fit in IEEE arithmetic. Flags above bit 7 are cast away (C39_wide_flags_refuted)."
  },
  {
   "property": "C40",
   "status": "partial",
   "theorems": [
    "C40_pattern_after",
    "C40_read_pattern_refuted",
    "C40_second_call_fails"
   ],
   "note": "False as stated: with ZEROFRAME and two or more reads in the first group the caller's list is rewritten; exactly characterised, and a second call with the same list then fails."
  },
  {
   "property": "C41",
   "status": "proved",
   "theorems": [
    "C41_match"
   ],
   "note": "exact arithmetic; geometry, statistic and solver are arbitrary functions; images are distinct objects"
  },
  {
   "property": "C42",
   "status": "partial",
   "theorems": [
    "C42_global",
    "C42_permutation",
    "C42_raises_iff",
    "C42_order_refuted"
   ],
   "note": "holds when every input has a measurable sky; otherwise the call raises TypeError exactly when an unmeasurable input follows a measurable one, so the order matters (refuted); exact arithmetic for the value, any ordered arithmetic for the raise condition"
  },
  {
   "property": "C43",
   "status": "proved",
   "theorems": [
    "C43_subtract",
    "C43_members"
   ],
   "note": "exact arithmetic, images with sky 0 at the start, as constructed"
  },
  {
   "property": "C44",
   "status": "partial",
   "theorems": [
    "C44_product",
    "C44_order",
    "C44_after_finalize",
    "C44_history",
    "C44_reset_partial",
    "C44_reset_same_group_refuted",
    "C44_reset_pointings_refuted",
    "C44_reset_midway_refuted",
    "C44_order_refuted",
    "C44_empty_refuted"
   ],
   "note": "Proved for a fresh object and any list of accepted models: pointings is the number of distinct groups, times are sums over the first model of each group, start/end extreme, data are all models in order; order does not matter when models of a group agree on their times; finalized objects refuse models and finalize again does nothing; over any history no group is counted twice. False of the code and refuted: after reset_arrays the group ids are kept (same group again: finalize raises; other groups: pointings counts both products), a reset before finalize keeps the data but drops their time, order matters when models of one group differ. C44_reset_partial gives what holds after a reset."
  },
  {
   "property": "C45",
   "status": "partial",
   "theorems": [
    "C45_combined",
    "C45_order",
    "C45_missing",
    "C45_stale_refuted",
    "C45_unbound_refuted",
    "C45_ratio_order_refuted",
    "C45_no_time",
    "C45_no_time_no_arrays",
    "C45_inverse"
   ],
   "note": "Formula and order independence proved in exact arithmetic (with NaN) for models that all carry what the weight needs and given the ratio; NaN for pixels nothing valid contributes to proved for IEEE arithmetic. Refuted otherwise: a model without readnoise variance is weighted with the previous model's; when there is none add_model fails half-way; without a given pixel scale ratio the first model's is used, so order matters. With exposure-time weights a model with a variance array but no time fails after being counted (C45_no_time). C45_inverse: with inverse-variance weights the combined read-noise variance is the scale over the sum of the inverse variances."
  },
  {
   "property": "C46",
   "status": "partial",
   "theorems": [
    "C46_bad",
    "C46_good",
    "C46_good_ieee",
    "C46_bad_time_refuted",
    "C46_type_refuted",
    "C46_negative_refuted"
   ],
   "note": "Zero on bad pixels proved for IEEE arithmetic, all weight types (exptime: when the time is finite); values on good pixels proved in exact arithmetic with NaN, and for ivm in IEEE arithmetic. Refuted: with exptime weighting and no time a bad pixel gets NaN; Resample accepts weight types build_driz_weight refuses; negative variances give negative weights. Conversion to float32 not modelled."
  },
  {
   "property": "C47",
   "status": "proved",
   "theorems": [
    "C47_range",
    "C47_no_box",
    "C47_right_refuted",
    "C47_left_refuted"
   ],
   "note": "Exact arithmetic. The range is exactly the set of pixels whose area meets the box; the refutations show what happens when the box misses the image (an index beyond the image, or pixel 0)."
  },
  {
   "property": "C48",
   "status": "proved",
   "theorems": [
    "C48_terminates",
    "C48_found",
    "C48_all_good",
    "C48_boundary",
    "C48_mean",
    "C48_area_positive",
    "C48_start_whole",
    "C48_start"
   ],
   "note": "WCS validity and sky area are arbitrary functions. Termination, nested result with only good boundary points, one removed edge with a bad point per round, perimeter order, corners and spacing of the points."
  },
  {
   "property": "C49",
   "status": "proved",
   "theorems": [
    "C49_range",
    "C49_lookup",
    "C49_complete",
    "C49_all_near",
    "C49_nested_refuted",
    "C49_cone",
    "C49_directory",
    "C49_directory_float_refuted"
   ],
   "note": "the rows returned are, as a multiset, exactly the catalogue rows in a searched cell that pass the final cosine test, and that test is separation <= radius in exact arithmetic. astropy-healpix's cone search and pyarrow are parameters (a cone that touches no partition is not covered). Nested partitions would lose sources (refuted); the directory name in the path is right in exact arithmetic but not in binary64 beyond 2^53 (refuted)"
  },
  {
   "property": "C50",
   "status": "partial",
   "theorems": [
    "C50_trim_partial",
    "C50_zero_refuted",
    "C50_zero_all"
   ],
   "note": "every non-zero count returns min(|count|, available) rows, the brightest or faintest; count 0 returns the whole catalogue instead of none. Magnitudes are totally ordered reals: masked or NaN magnitudes are not covered"
  },
  {
   "property": "C51",
   "status": "proved",
   "theorems": [
    "C51_matrix",
    "C51_rotation"
   ],
   "note": "exact reals with Coq's cos and sin; C51_rotation: a requested position angle alone fixes the matrix"
  },
  {
   "property": "C52",
   "status": "partial",
   "theorems": [
    "C52_default_box_partial",
    "C52_shape",
    "C52_crpix",
    "C52_small",
    "C52_bbox_of_shape",
    "C52_outside_refuted",
    "C52_below_refuted"
   ],
   "note": "proved for one axis in exact arithmetic, after the WCS transform (a parameter). Without a reference pixel every vertex lies between 0 and one pixel past the upper edge; with a shape the box stays in the image and the reference pixel is honoured. Refuted: the extreme vertex may lie outside the box, and with an explicit reference pixel and no shape vertices may lie any distance below it"
  },
  {
   "property": "C53",
   "status": "partial",
   "theorems": [
    "C53_polygons",
    "C53_keyword",
    "C53_precision",
    "C53_nan",
    "C53_nan2",
    "C53_flat_refuted",
    "C53_keyword_truncates_refuted",
    "C53_infinite_refuted"
   ],
   "note": "finite vertices: proved for any list of polygons and for the four-vertex keyword, digit by digit and to 0.5e-9 (rounding the parsed decimal to a double is not modelled). Refuted for more than four vertices in the keyword, infinite coordinates, and the division into polygons, which parsing loses"
  },
  {
   "property": "C54",
   "status": "proved",
   "theorems": [
    "C54_direction",
    "C54_inverse"
   ],
   "note": "exact reals, any units for c and v; C54_inverse: the opposite velocity undoes direction and scale"
  },
  {
   "property": "C55",
   "status": "proved",
   "theorems": [
    "C55_zeroframe"
   ],
   "note": ""
  },
  {
   "property": "C56",
   "status": "proved",
   "theorems": [
    "C56_readlevel_recovers_ramp"
   ],
   "note": "Over the reals; the two polynomials are assumed to invert each other on the ramp's values."
  },
  {
   "property": "C57",
   "status": "proved",
   "theorems": [
    "C57_resampled_flags",
    "C57_never_nan"
   ],
   "note": "scipy's 3x3 box convolution with nearest mode is modelled as a count over clamped indices."
  },
  {
   "property": "C58",
   "status": "proved",
   "theorems": [
    "C58_medfilt",
    "C58_even_kernel_shape"
   ],
   "note": "2-D arrays; nanmedian of a window is an arbitrary function of the window's values in C order."
  },
  {
   "property": "C59",
   "status": "partial",
   "theorems": [
    "C59_edge_exemption_square_partial",
    "C59_edge_exemption_refuted"
   ],
   "note": "True for square arrays; refuted for non-square ones because the row count is used for both axes."
  },
  {
   "property": "C60",
   "status": "proved",
   "theorems": [
    "C60_shower_only_adds_jump",
    "C60_shower_keeps_pixel_usable",
    "C60_too_few_differences",
    "C60_shower_exact",
    "C60_count",
    "C60_first_good"
   ],
   "note": "For any region finder and any mean function. The significance map and its smoothing are external."
  },
  {
   "property": "C61",
   "status": "partial",
   "theorems": [
    "C61_masked_exactly_partial",
    "C61_flagged_groups_masked_refuted"
   ],
   "note": "Only five exact words are blanked; a group carrying a further flag is used, refuted by a SATURATED|64 word."
  },
  {
   "property": "C62",
   "status": "partial",
   "theorems": [
    "C62_jump_on_saturated_refuted"
   ],
   "note": "False: persistence flagging ignores saturation in the next integration. Within one integration C24_jump_only_inside shows JUMP is only added at unsaturated groups."
  },
  {
   "property": "C63",
   "status": "proved",
   "theorems": [
    "C63_bad_gain"
   ],
   "note": "Any arithmetic satisfying the comparison laws, including binary32/64."
  },
  {
   "property": "C64",
   "status": "proved",
   "theorems": [
    "C64_refit"
   ],
   "note": "Generic over number types with FLaws and a NaN."
  },
  {
   "property": "C65",
   "status": "proved",
   "theorems": [
    "C65_buffer_irrelevant",
    "C65_pixels_independent",
    "C65_wrong_length"
   ],
   "note": "fit_ramps over a shared buffer."
  },
  {
   "property": "C66",
   "status": "proved",
   "theorems": [
    "C66_combination",
    "C66_unmeasured",
    "C66_combination_nan"
   ],
   "note": "Combination over exact reals; the unmeasured case over any FLaws number type (C66_unmeasured_zero evaluates it in single precision). Such a pixel cannot be told from a measured rate of 0 by the rate and variances. C66_combination_nan adds ramps whose fit is NaN."
  },
  {
   "property": "C67",
   "status": "proved",
   "theorems": [
    "C67_tau",
    "C67_covariance",
    "C67_poisson_variance",
    "C67_difference_variance",
    "C67_unordered_refuted"
   ],
   "note": "Exact reals; for reads listed out of order tau is not the variance (refutation)."
  },
  {
   "property": "C68",
   "status": "proved",
   "theorems": [
    "C68_split_iff",
    "C68_no_split",
    "C68_nan_hides_jump_refuted",
    "C68_statistic",
    "C68_split_reads"
   ],
   "note": "The proviso about the last single difference is needed: C68_nan_hides_jump_refuted shows a NaN there (negative variance estimate) hides a jump elsewhere in the ramp. C68_statistic (exact reals, reads in order): the statistic is the local rate less the fitted one in standard deviations of the local rate, computed read by read; C68_split_reads restates the split criterion with it, for positive variances."
  },
  {
   "property": "C69",
   "status": "partial",
   "theorems": [
    "C69_exposure_error",
    "C69_integration_error",
    "C69_two_segments_refuted",
    "C69_chargeloss_refuted",
    "C69_exposure_error_any"
   ],
   "note": "Proved without CHARGELOSS bookkeeping (which changes variances but not errors, C69_chargeloss_refuted). For errors below 1000 and ramps not replaced by their ZEROFRAME. C69_exposure_error_any: the exposure identity for any number type, IEEE included."
  },
  {
   "property": "C70",
   "status": "proved",
   "theorems": [
    "C70_weighted_mean",
    "C70_nan"
   ],
   "note": "Exact arithmetic, positive variances below the 1e6 threshold, no ZEROFRAME replacement, no CHARGELOSS bookkeeping. C70_nan: the same with NaN in groups outside the fitted segments."
  },
  {
   "property": "C71",
   "status": "partial",
   "theorems": [
    "C71_readnoise_after_call",
    "C71_second_call_refuted"
   ],
   "note": "False: the array is multiplied in place; C71_readnoise_after_call says exactly when it is unchanged."
  },
  {
   "property": "C72",
   "status": "proved",
   "theorems": [
    "C72_covariance",
    "C72_positive_definite"
   ],
   "note": "Exact reals."
  },
  {
   "property": "C73",
   "status": "proved",
   "theorems": [
    "C73_variance_parts"
   ],
   "note": "Exact reals."
  },
  {
   "property": "C74",
   "status": "partial",
   "theorems": [
    "C74_one_omitted",
    "C74_two_omitted_partial",
    "C74_uncoupled_refuted"
   ],
   "note": "One omission: proved for all masks. Two omissions: needs the coupling of the two differences to be non-zero; without it the code divides by zero and then finds no jump at all (C74_uncoupled_refuted, binary64)."
  },
  {
   "property": "C75",
   "status": "proved",
   "theorems": [
    "C75_scale_immaterial",
    "C75_scale_choice"
   ],
   "note": "Exact reals; the root function is a parameter."
  },
  {
   "property": "C76",
   "status": "proved",
   "theorems": [
    "C76_combined",
    "C76_constant"
   ],
   "note": "Exact reals; median and final DQ rule are parameters. Integrations without a fit (NaN) are C136."
  },
  {
   "property": "C77",
   "status": "proved",
   "theorems": [
    "C77_recovers"
   ],
   "note": "exact arithmetic; solver is any function returning a least-squares minimiser of the weighted equations"
  },
  {
   "property": "C78",
   "status": "proved",
   "theorems": [
    "C78_global",
    "C78_local"
   ],
   "note": "exact arithmetic"
  },
  {
   "property": "C79",
   "status": "partial",
   "theorems": [
    "C79_border",
    "C79_step_refuted"
   ],
   "note": "everything except the separation: 105 pixels and stepsize 10 give points 10.5 apart (the point count is used where the interval count is needed)"
  },
  {
   "property": "C80",
   "status": "proved",
   "theorems": [
    "C80_image",
    "C80_own",
    "C80_group",
    "C80_group_own"
   ],
   "note": "exact arithmetic; intersection areas non-negative, masks and filled regions of the image's size"
  },
  {
   "property": "C81",
   "status": "proved",
   "theorems": [
    "C81_from_var",
    "C81_scales",
    "C81_enable_var_refuted"
   ],
   "note": "Exact arithmetic with NaN. C81_enable_var_refuted: the documentation's claim that from_var works regardless of enable_var is false."
  },
  {
   "property": "C82",
   "status": "proved",
   "theorems": [
    "C82_ratio"
   ],
   "note": "Any number type, any run without exception from a fresh object."
  },
  {
   "property": "C83",
   "status": "partial",
   "theorems": [
    "C83_boxes_restored",
    "C83_full",
    "C83_order",
    "C83_grid",
    "C83_affine",
    "C83_fallback",
    "C83_spacing_refuted",
    "C83_tenth_refuted",
    "C83_thin_refuted",
    "C83_disable_refuted",
    "C83_range",
    "C83_boxes_used"
   ],
   "note": "Spacing not larger than stepsize is false and refuted (as is the documented 1/10 limit); thin boxes leave too few points for the spline; disable_bbox='from' has no effect on the interpolated map outside the box. Everything else proved; spline interpolation is an oracle assumed exact on affine functions for C83_affine. C83_range and C83_boxes_used state the pixel range and the use of the boxes without the model's helpers."
  },
  {
   "property": "C84",
   "status": "proved",
   "theorems": [
    "C84_relative",
    "C84_limit",
    "C84_relative_errors",
    "C84_absolute",
    "C84_absolute_unbounded_refuted"
   ],
   "note": "aligner and separations are parameters; C84_limit gives the limit in exact arithmetic; absolute alignment bounds the correction by nothing (refuted as an extra)"
  },
  {
   "property": "C85",
   "status": "proved",
   "theorems": [
    "C85_parse",
    "C85_source"
   ],
   "note": "astropy's rename_column refusing an existing name is part of the model"
  },
  {
   "property": "C86",
   "status": "proved",
   "theorems": [
    "C86_bbox"
   ],
   "note": "any arithmetic incl. NaN"
  },
  {
   "property": "C87",
   "status": "proved",
   "theorems": [
    "C87_rows",
    "C87_displacement"
   ],
   "note": "cos/sin only through cos^2+sin^2=1; cartesian to lon/lat conversion and the earth ephemeris are parameters. An epoch of exactly 0.0 counts as no epoch"
  },
  {
   "property": "C88",
   "status": "proved",
   "theorems": [
    "C88_scale",
    "C88_value"
   ],
   "note": "after the WCS calls, which are parameters"
  },
  {
   "property": "C89",
   "status": "partial",
   "theorems": [
    "C89_direction",
    "C89_grouping",
    "C89_single",
    "C89_uninitialised_refuted"
   ],
   "note": "proved for the footprint-based function (exact reals, atan2 defined case by case). Refuted for compute_fiducial: a footprint whose coordinates are all zero yields uninitialised memory"
  },
  {
   "property": "C90",
   "status": "partial",
   "theorems": [
    "C90_rectilinear",
    "C90_straight",
    "C90_rotation",
    "C90_vanishes",
    "C90_duplicate_refuted"
   ],
   "note": "corners, straight vertices (sides >= 0.05 pixel, distinct vertices, exact arithmetic) and starting vertex proved; refuted: a repeated corner after a horizontal side loses both copies; a polygon of steps below 0.05 pixel vanishes (C90_vanishes)"
  },
  {
   "property": "C91",
   "status": "partial",
   "theorems": [
    "C91_entries",
    "C91_planes",
    "C91_weighted_mean",
    "C91_axis_refuted",
    "C91_empty_slots"
   ],
   "note": "Entries, padding and the weighted mean are proved. The plane count is proved to be large enough; that it equals the largest number of segments is false (C91_axis_refuted): segments dropped for being too short still count. C91_empty_slots: the empty slots of all seven arrays are zero."
  },
  {
   "property": "C92",
   "status": "partial",
   "theorems": [
    "C92_least_squares",
    "C92_exact",
    "C92_one_group",
    "C92_zero_time_refuted"
   ],
   "note": "Least squares is proved for every segment of two or more groups. The intercept is at group index 0, not at exposure time zero (C92_zero_time_refuted); a one-group segment stores no intercept."
  },
  {
   "property": "C93",
   "status": "partial",
   "theorems": [
    "C93_formula",
    "C93_zero_time_partial",
    "C93_saturated",
    "C93_unusable",
    "C93_units_refuted"
   ],
   "note": "The extrapolation formula and the zero cases are proved. Since the rate is per second and the first group's time is in groups, the pedestal is the zero-time signal only for a group time of 1 s (C93_zero_time_partial); refuted otherwise (C93_units_refuted)."
  },
  {
   "property": "C94",
   "status": "proved",
   "theorems": [
    "C94_crs"
   ],
   "note": "Any arithmetic; the magnitudes use the science groups before ZEROFRAME replacement."
  },
  {
   "property": "C95",
   "status": "partial",
   "theorems": [
    "C95_sigmas",
    "C95_two_groups",
    "C95_units",
    "C95_units_refuted"
   ],
   "note": "The formulas are proved. SIGSLOPE is per group while SLOPE is per second (C95_units, C95_units_refuted); two-group segments use sqrt(2)*read noise for both."
  },
  {
   "property": "C96",
   "status": "partial",
   "theorems": [
    "C96_mirrored",
    "C96_agrees_partial",
    "C96_bounds",
    "C96_core_refuted",
    "C96_selection_refuted"
   ],
   "note": "False of the code (C96_core_refuted, C96_selection_refuted): the test mirrors the ellipse at the diagonal, rows for columns (C96_mirrored). Proved for circles and for ellipses along a diagonal (C96_agrees_partial); outside the ring between the half axes test and area agree (C96_bounds). skimage's measuring and drawing conventions are taken from its documentation."
  },
  {
   "property": "C97",
   "status": "partial",
   "theorems": [
    "C97_weighted_mean",
    "C97_range",
    "C97_flat",
    "C97_missing_irrelevant",
    "C97_odd_kernel_refuted"
   ],
   "note": "Proved for square odd kernels of at least 3 x 3 (all that astropy's ring kernels are); a rectangular odd kernel raises (C97_odd_kernel_refuted). Pixels whose neighbours' weight is at most a thousandth of the kernel's mean become NaN. FFT rounding is not modelled."
  },
  {
   "property": "C98",
   "status": "proved",
   "theorems": [
    "C98_reported",
    "C98_quiet"
   ],
   "note": "Exact arithmetic with a missing value; numpy's median, astropy's clipped statistics, the ring kernel and skimage's region finding are parameters with the stated hypotheses. C98_quiet composes the search with the flagging of C60."
  },
  {
   "property": "C99",
   "status": "proved",
   "theorems": [
    "C99_between",
    "C99_even_coverage",
    "C99_best_kept",
    "C99_uncovered",
    "C99_scaling",
    "C99_outlier",
    "C99_no_coverage"
   ],
   "note": "Exact arithmetic except C99_uncovered (any) and C99_no_coverage (double precision). The median is any function that returns a median; sigma clipping is modelled from astropy's documentation."
  }
 ]
}
