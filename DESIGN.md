# Formal model of stcal — design

This directory holds a machine-checked model (Coq/Rocq 8.16.1) of parts of
`spacetelescope/stcal` (sources in `/repo`, read as text only) together with the
theorems listed in `MANIFEST.json`, one or more per property of
`properties.jsonl`.

## Conventions

* `theories/<Area>Model.v` — the model.  Definitions only, each with a comment
  citing the file and lines it models, and noting simplifications.
* `theories/<Area>Spec.v` — a small specification, written without looking at the
  helpers of the model.
* `theories/<Area>Proofs.v` — lemmas.
* `theories/<Area>Props.v` — the property theorems (`exact lemma`),
  `Print Assumptions` below each, and an `Example` showing the hypotheses are met
  by a concrete non-trivial case.

Names: `Cnn_...` for the theorems of property `Cnn`; suffix `_partial` when only
part of the property is proved; suffix `_refuted` for a machine-checked
counterexample (the unchanged code violates the naive statement).

### Numbers

Floating-point values are handled in three ways, always stated in the theorem.

1. **Any arithmetic.** Decision logic (flags, indices, slicing) is modelled over a
   record `FOps` of operations (`+ - * /`, comparisons, `isnan`...).  Theorems
   quantify over *every* such record, hence also over IEEE binary32/binary64 with
   all its rounding, NaN and infinities.
2. **Exact arithmetic.** Algebraic identities are stated over the real numbers `R`
   (NaN as `None` when it matters).  Rounding is then outside the model; this is
   part of the trusted base and said in the theorem's comment.
3. **IEEE.** Executable examples and refutations use the stdlib `SpecFloat`
   formalisation of binary32/binary64, a computable model without axioms.

### Arrays

A 2-D numpy array is a function `nat -> nat -> A` (row, column) with its shape kept
separately; 3-D/4-D arrays add leading indices.  Statements are pointwise and only
about indices inside the shape.  Per-pixel ramps are lists where the code walks
them sequentially.  In-place updates become returned values.  Exceptions are values
(`option`/`result`).

### DQ words

DQ words are `N`, flags are arbitrary `N` values (normally single bits; the
theorem says so when it matters), operations `N.lor`, `N.land`, bit tests `N.testbit`.

## Plan per property

| Id | Modelled | How proved |
|----|----------|-----------|
| C01 | forward loop of flag_saturated_pixels with carried `previously_saturated`, growth | induction over groups; dilation lemma C02; iff |
| C02 | `_adjacent_pixels` slice by slice (interior shifts, edge loop with reflecting maximum filter, shape errors as values) | case analysis on position; iff Chebyshev; error case by refutation |
| C03 | whole flag_saturated_pixels incl. backward passes | bitwise monotonicity by induction over passes |
| C04 | same | iff, per bit |
| C05 | same, thresholds replaced by atod_limit+1 | corollary of C01 |
| C06 | backward pass + group-2 pass | iff, per bit |
| C07 | compute_num_cores on strings | case analysis; `0` refuted |
| C08 | rows_per_slice, slicing, assemble/get_slice | induction over slices; equality with direct map |
| C09–C11 | do_correction_data, averaging, subtract_dark | pointwise equations; counterexamples for averaging |
| C12–C14 | apply_polynomial (Horner loop), prepare_coefficients, tile loop | induction on coefficients; pointwise; induction on tiles |
| C15–C16 | section arithmetic, files as lists of rows, add/compute as a state machine | invariant over add history; refinement to in-memory stack |
| C17 | flag_crs, _abs_deriv | pointwise iff / max characterisation |
| C18 | propagate_flags both strategies | iff with window spec |
| C19 | flag_four_neighbors | pointwise iff |
| C20–C22 | detect_jumps_data post-processing, slice/reassemble, group counting | bitwise; index arithmetic; decision table |
| C23 | iterative search of one ramp | termination measure, invariants for arbitrary numeric oracle |
| C24–C25 | flag_large_events bookkeeping, extend_ellipses/extend_saturation with ellipse drawing as oracle | set inclusion; counterexample for 2 groups |
| C26–C29 | init_ramps, fit_jumps work list, fit_ramp, _get_power | induction on DQ list; measure on work list with detector as oracle; field algebra; interval cases |
| C30–C33 | segment list construction/pruning, slope combination, DQ logic of slope_fitter.c | induction; field algebra; bitwise; counterexample |
| C34–C36 | suppression, MIRI trimming, byte order bookkeeping | pointwise; list lemmas; state tracking |
| C37–C40 | recursions of likely_fit, mask loop, read pattern aliasing | algebraic induction; loop invariants with numeric oracle; counterexample |
| C41–C43 | skymatch control flow with statistics and linear solver as oracles | order lemmas; relational simulation |
| C44–C48 | Resample state machine, variance sums, weights, ranges, boundary search | invariants over histories; field algebra; pointwise; termination measure |
| C49–C50 | HEALPix lookup, catalogue slicing | shift arithmetic; list lemmas |
| C51–C54 | rotation matrix, bounding box rounding, S_REGION strings, aberration | real algebra; floor bounds; string induction; real algebra |
| C55 | zeroframe handling of flag_saturated_pixels | pointwise iff |
| C56 | read-level linearity (linearity.py) with the two polynomials as functions | induction on reads, exact reals |
| C57–C58 | flag_resampled_crs, medfilt | pointwise iff; window arithmetic |
| C59, C62 | near_edge, make_snowballs, persistence flags | case analysis; counterexamples on literals |
| C60–C61 | find_faint_extended: blanking, saturation check, flagging; region finder as oracle | bitwise induction over groups |
| C63 | setup_pdq (gain and read-noise checks) | any ordered arithmetic |
| C64–C68 | _fit.pyx, _jump.pyx, _ramp.pyx end to end | buffer invariants; field algebra; variance as a double sum; threshold iff |
| C69–C71 | slope_fitter.c slopes, variances, errors, exposure combination; ols_fit.py around it | exact reals; counterexamples |
| C72–C76 | likely_fit.py, likely_algo_classes.py | covariance as a double sum; linear algebra of the recursions; scaling |
| C77–C80 | skymatch.py, skyimage.py, skystatistics.py | least-squares minimiser as oracle; polygon walk; set equality |
| C81–C82 | Resample error arrays, pixel scale ratio | exact arithmetic with NaN; history invariant |
| C83 | calc_pixmap / sparse maps of resample/utils.py | spline as oracle; index arithmetic |
| C84–C87 | tweakreg.py control flow, trimming, bounding box, proper motion | case analysis; list lemmas; vector algebra |
| C88–C90 | alignment/util.py scale, fiducials; polygon simplification | real algebra; list walk |
| C91–C95 | optional results of slope_fitter.c and ols_fit.py | list induction; least squares; counterexamples on units |
| C96 | point_inside_ellipse against the drawn ellipse | trigonometry; counterexample |
| C97–C98 | convolve_fast, the shower significance maps | double sums over windows; exact arithmetic with NaN |
| C99 | compute_weight_threshold, sigma clipping (RsModel) | a median is within three standard deviations of some value; any median function |
| C100 | pixel areas, scale ratio, intensity scale of resample.py | exact reals; composition with the accumulation of C82; counterexamples |
| C101 | shape estimates of check_output_wcs and calc_pixmap | truncation and ceiling; counterexample |
| C102–C103 | sky level subtraction; gwcs_blot's pixel map | case analysis; blot_image as oracle |
| C104 | CHARGELOSS recomputation (slope_fitter.c 2913–3035): read-noise variance of the ramp with the flags removed | segments of a changed flag word, fold equality in any arithmetic; exact reals for the exposure; refuted for isolated groups and for CHARGELOSS without DO_NOT_USE |
| C105 | ramp_fit, create_ramp_fit_class, ramp_fit_data (ramp_fit.py): which fit runs | case analysis on the name; layer lemmas showing the C fit ignores CHARGELOSS without the original DQ; refuted with CHARGELOSS |
| C106 | the dictionary look-ups of the same functions, as option | exact iff for success; refuted for the documented names |
| C107 | ZEROFRAME split and default read times of likely_fit.py | exact reals: mean of a line, then C38 end to end; refuted for a ZEROFRAME of 0 |
| C108 | same driver model, pixel-wise image | equality of the pixel's C input and flags; refuted for all-saturated images and MIRI |
| C109 | fit_ramps/get_ramp_result with an empty mask | predicate "zero or NaN" closed under the operations, for IEEE and exact-with-NaN arithmetic; refuted for DO_NOT_USE and for the error |
| C110 | fit_ramps_casertano (ols_cas22_fit.py): reshaping, read-noise broadcast, unit | arrays as shape plus flat elements; reduction to C65; refuted for a single ramp and for units |
| C111 | the two-point search of JumpModel and the work list of Cas22Model, run twice with different thresholds | per-pixel rounds coincide until the stricter search stops; neighbour and after-jump growth are monotone; the work list flags the nodes of a tree that a higher threshold prunes |
| C112 | nan_median, integ_rate, median_rate and the Poisson part of the segment fits of OlsModel | insertion sort proved a sorted permutation; NaN-filtered first differences are the usable rates; inverse-variance sums become sums of times |
| C113 | combine_sregions, combine_footprints, _intersect_with_bbox, _convert_to_array (SrModel); shapely, WCS, decimal conversion and simplification are parameters | point-set contract for shapely; reshape proved to be a map; refuted for ragged, empty and multi-polygon inputs and for cuts into pieces |
| C114 | compute_s_region_imaging (SrModel) | case analysis; printed range over the reals, refuted at 360 |
| C115 | OlsModel over exact numbers with NaN | weights, rates and sums shown to depend on differences only; one-group case refuted |
| C116 | OlsModel, any number system | pointwise equality of the fitted samples; 'left out' refuted in binary64 |
| C117 | SatModel, two calls | bitwise characterisations of C01-C06 composed; refuted with growing |
| C118 | SatModel, two inputs | from C01 and C04 with the comparison laws |
| C119 | JumpModel, Cas22Model, the likelihood input of DrvModel | differences cancel the constant; coefficients of the optimal-weighting fit sum to zero; rounding refuted |
| C120 | OlsModel (whole pixel) over RN | a relation "differs by the factor a" carried through every step of the fit; the fixed 10^6 cut refuted as unit-independent |
| C121 | JumpModel.find_crs | specification from the inputs only (sample, step, middle, off_by, three methods, spread, jump); composed from the stage theorems of C18, C19, C22, C23 and new ones for the single pass and sigma clipping |
| C122 | JdModel.detect_jumps_data (JumpModel + SnowModel + MpModel composed, JumpData/TwoPointParams constructors) | congruence of the snowball and shower searches in the frame (JdProofs), C21 for the slices, a count argument over the slices; unit change by exact arithmetic with NaN; five refutations |
| C123 | JumpModel.find_crs, JdModel.timing/detect_jumps_data | equivariance of every stage under division of the rates by a constant, functional extensionality; the timing of an even pattern computed in closed form |
| C124 | LdModel.likely_ramp_fit (all of likely_ramp_fit, the C-free driver): rows with the ZEROFRAME in front, search mask, snowball search on one integration, final mask, fit, image | word invariants through the snowball search; mask read off the words before and after; closure of zero-or-NaN under the search's arithmetic for the infinite threshold; witness for the saturated cores; the straight line in RN (LrLift: every recursion over RN is the real one as long as nothing is divided by zero; omitting differences from a line gains zero or NaN, so the search drops nothing) |
| C125 | the same model over exact numbers with missing values (RN) | every quantity of the fit gets its power of k/t (relation `rel` of UnProps): the noise table, the running rescaling of the covariance (two phases: before the first rescaling and after), the recursions, the leave-out values (unchanged, so the search drops the same differences), the combination of integrations |
| C126 | Cas22Model.fit_ramps over exact numbers with missing values (RN) | every quantity gets its power of the unit (`rel`), the work list visits the same ramps, the weighted average by an invariant (total weight zero only if every sum is zero or NaN); C65 for the shared buffer; witness for the slope-dependent threshold |
| C127 | RvModel.check_var, resample_one (shape rules, square root, drizzle as a parameter, square), composed with ResModel | Jensen's inequality for weighted means of square roots; C45_combined for the finished product |
| C128 | OutlierModel.flag_crs, flag_resampled_crs, abs_deriv (as for C17, C57) over exact numbers with a missing value | the derivative is the unique largest neighbour difference (C17_abs_deriv), so maps of the grid that keep neighbours and windows carry flags along |
| C129 | SkyModel.skymatch (as for C41-C43) over exact numbers with a missing value | a map of the numbers that keeps +, -, order and scaling by weights commutes with every stage of skymatch; per-input shifts commute with the local stage |
| C130 | NmModel (np.nanmedian written out), MedianModel computers, OutlierModel.flag_crs, exact numbers with a missing value | the computers return the median of the samples (C15); sorted lists: positions and counts, uniqueness of the ascending order gives permutation and affine equivariance |
| C131 | DarkModel.do_correction_data | C09/C10 theorems with the value of a linear reference at any plane; re-indexing of planes commutes with extrapolation, averaging and subtraction |
| C132 | JumpModel.find_crs, NmModel.np_median | C121 turns `find_crs` into the documented iteration; the median of a nearly constant list turns that into one inequality, by induction over the rounds; downwards false: `C132_dip_refuted` |
| C133 | JumpModel.find_crs then OlsModel.ols_pixel | C132 gives the flags, C30 the segments (none contains both sides of the jump), C31 with missing values the slope |
| C134 | find_crs (JumpModel), ols_pixel (OlsModel), fit_jumps (Cas22Model) | jump search reads samples only through the masked copy; least squares: a relation between the prepared integrations that agree on usable groups, carried through rate, segments (C30) and sums; Casertano: the two work lists run in step on runs of good resultants |
| C135 | fit_jumps (Cas22Model), exact reals with missing values | an upward step cannot lower the fitted rate (the weights of the estimator change sign once), so every difference that does not span the step has a statistic that is missing or not positive; induction over the work list; C27 and C28 for the rate |
| C136 | image_info (LikelyModel), exact reals with missing values | each NaN-skipping sum over all integrations is the plain sum over the fitted ones; two passes; then C76 |
| C137 | ResModel (add_all, finalize; two runs compared) | `MrProps`: from C45_inverse/C45_combined; monotonicity of 1/sum(1/x), Cauchy-Schwarz by induction; two machine-number witnesses where the claim stops |
| C138 | JumpModel.detection_stage (one slice), composed with itself | `JwProps`: C121's specification reads only DO_NOT_USE/SATURATED and the jumps already there, so what is found anew is the same; witnesses for the configurations where growth starts from grown flags |
| C139 | ResModel (add_all, finalize), two runs on converted images | `RuProps`: weights are multiplied by one factor (the time unit, or the inverse of the variance unit), which cancels in C45_combined |
| C140 | OlsModel.v (`ols_pixel`) | OqProps.v: C70 gives the exposure's rate as a weighted mean with weights 1/variance; a weighted mean with positive weights stays between bounds, and a sum of positive terms is above each of them |

## Trusted base

* Coq 8.16.1's kernel.
* The axioms printed by `Print Assumptions`, listed for every property theorem in
  `AXIOMS.md`: none for the decision-logic theorems; for theorems over `R` the standard
  library's `ClassicalDedekindReals.sig_forall_dec`, `ClassicalDedekindReals.sig_not_dec`,
  `FunctionalExtensionality.functional_extensionality_dep` and, for some,
  `Classical_Prop.classic`.
* The reading of the Python/Cython/C code: nothing here is extracted from or run
  against it.


## What is modelled, file by file

The comment on each definition gives the lines.  "Oracle" means: a parameter of the model,
about which the theorem assumes nothing unless its hypotheses say so.

| File under src/stcal | Modelled in | Not modelled / oracle |
|---|---|---|
| saturation/saturation.py | SatModel | logging |
| multiprocessing.py; slicing in ramp_fit, jump | MpModel, JumpModel | process pool transport |
| dark_current/dark_sub.py, dark_class.py | DarkModel | metadata, saving the averaged dark |
| linearity/linearity.py | LinModel | logging |
| outlier_detection/median.py, utils.py | MedianModel, OutlierModel, RsModel | file format on disk; gwcs_blot's drizzle call, astropy sigma clipping internals |
| jump/twopoint_difference.py | JumpModel | bottleneck/numpy medians (oracle), astropy sigma clipping (oracle) |
| jump/jump.py | JumpModel, SnowModel, ShModel | skimage labelling, region properties and drawing (oracles); FFT rounding |
| jump/jump_class.py, twopoint_difference_class.py | the settings read | setters, printing |
| ramp_fitting/ols_cas22/*.pyx, ols_cas22_fit.py | Cas22Model, CwModel | Cython memory views, unit conversion itself; roundings only in IEEE examples |
| ramp_fitting/src/slope_fitter.c | OlsModel, OptModel | Python/C marshalling, allocation, debug printing |
| ramp_fitting/ols_fit.py, ramp_fit.py, utils.py | OlsPyModel, OptModel, DrvModel | multiprocessing transport, logging |
| ramp_fitting/likely_fit.py, likely_algo_classes.py | LikelyModel, DrvModel | debug printing |
| skymatch/*.py | SkyModel | spherical geometry, statistics, linear solver (oracles) |
| resample/resample.py, utils.py | ResModel, ResUtilModel, RsModel | drizzle, gwcs (oracles); remaining metadata of the output model |
| tweakreg/*.py | TwModel | tweakwcs, astropy-healpix, pyarrow, ephemerides (oracles); network access |
| alignment/*.py, velocity_aberration.py | AlModel | gwcs, shapely (oracles) |

Not modelled anywhere: numpy/scipy/astropy internals, logging, timing, memory management of
the C extension, dtype conversions except where a definition says so.

## Mutation log conventions

`seeded/LOG.jsonl` records one seeded bug per line.  `theorems_failed` names only what the
rebuild reported: the first declaration in each file that no longer checked.  Files importing a
broken file are not rebuilt; `not_rebuilt_expected_to_depend` lists the property theorems in
such files that use the broken lemma according to my reading, not according to an observed error.
A failing proof script shows that the edit is noticed; it does not by itself show that the
mutated statement is false.
