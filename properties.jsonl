{"id": "C01", "title": "Processing flags decode uniquely", "statement": "The value obtained by OR-ing any collection of metadetect processing flags with any value built from ngmix flags (all of which lie below bit 19) determines exactly which metadetect flags were set and exactly which ngmix value was OR-ed in; it is non-negative and fits in a signed 32 bit column.", "quantifier": "every subset of the metadetect flags and every ngmix flag value in [0, 2^19)", "why_tests_cant": "2^12 subsets times 2^19 low values; a unit test samples a few flags one at a time", "anchors": ["metadetect/procflags.py: SHEAR_RANGE_ERROR..DEBLEND_FAILURE", "metadetect/fitting.py: get_wavg_output_struct"]}
{"id": "C02", "title": "The flag name table is a two-way dictionary", "statement": "For every metadetect flag, looking its value up in the name table gives its name and looking that name up gives the value back; entries that ngmix put in the table are kept as long as ngmix uses no metadetect name and no value at or above bit 19.", "quantifier": "every metadetect flag and every ngmix table satisfying the documented bit partition", "why_tests_cant": "depends on the contents of the third party table the entries are merged into", "anchors": ["metadetect/procflags.py: NAME_MAP, get_procflags_str"]}
{"id": "C03", "title": "Column names of different quantities never collide", "statement": "For a fixed prefix and suffix the column namer maps different quantity names to different column names, whatever the strings are; with an empty prefix and with an empty or 'noshear' suffix it returns the name unchanged.", "quantifier": "every prefix, suffix and pair of names (arbitrary strings)", "why_tests_cant": "injectivity over all strings", "anchors": ["metadetect/util.py: Namer"]}
{"id": "C04", "title": "Unshearing a sheared position returns the original position (and conversely)", "statement": "For every applied shear type, every step with |step|<1, every image size, every invertible WCS jacobian with any origin, unshear_positions(shear_positions(row, col)) gives back (row, col), and so does the composition in the other order.", "quantifier": "all real rows/cols, dims, steps in (-1,1), jacobians with non-zero determinant, all shear types", "why_tests_cant": "continuum of inputs; tests use a handful of positions with one jacobian", "anchors": ["metadetect/shearpos.py: shear_positions, unshear_positions"]}
{"id": "C05", "title": "Types with no image shear do not move positions, unknown types are rejected", "statement": "For noshear and the four PSF-sheared types both functions return the inputs exactly and never look at the WCS; for 1p,1m,2p,2m the image centre is the only forced fixed point and it is fixed; any other type string raises ValueError.", "quantifier": "every type string, every position, every obs", "why_tests_cant": "all strings", "anchors": ["metadetect/shearpos.py: SKIP_SHEARS, get_galsim_shear, shear_positions, unshear_positions"]}
{"id": "C06", "title": "Opposite shears undo each other and preserve area", "statement": "With the same step, unshearing with '1p' is the same map as shearing with '1m' (and 2p/2m), and the maps preserve oriented pixel area, so object densities are not changed by the transformation.", "quantifier": "all positions, steps in (-1,1), jacobians, both components", "why_tests_cant": "continuum of inputs", "anchors": ["metadetect/shearpos.py: shear_positions, unshear_positions, get_galsim_shear"]}
{"id": "C07", "title": "The stamp size assigned to a detection is the smallest allowed one that fits", "statement": "For every sigma based and SExtractor based size the assigned box size is between the configured minimum and maximum, is an allowed size (or the configured maximum), is at least the requested size whenever the requested size does not exceed the maximum, and no smaller permitted size would do.", "quantifier": "all requested sizes and all configured minimum/maximum box sizes", "why_tests_cant": "all real sizes and all configurations", "anchors": ["metadetect/detect.py: MEDSifier._get_box_sizes", "metadetect/defaults.py: ALLOWED_BOX_SIZES"]}
{"id": "C08", "title": "Stamp pixels are image pixels or the documented fill values", "statement": "For every object whose catalogue start position is inside the image, the stamp of any kind (image, weight, seg, bmask, noise) has exactly the catalogued box size and each stamp pixel equals the image pixel at start+offset when that is inside the image, and otherwise the fill value for the kind (0, and the EDGE bit for bmask).", "quantifier": "every image shape and contents, every start position inside the image, every box size, every cutout kind", "why_tests_cant": "all images, all positions including partial overlap with any edge or corner", "anchors": ["metadetect/detect.py: MEDSInterface.get_cutout, MEDSInterface._get_clipped_boxes", "metadetect/defaults.py: DEFAULT_IMAGE_VALUES, BMASK_EDGE"]}
{"id": "C09", "title": "The stamp is anchored to the object", "statement": "For every catalogue position inside the image and every box size at least 2, the stamp built from a catalogue starts inside the image, contains the pixel the object is on, cutout position plus start equals the original position, and the start never exceeds the end.", "quantifier": "all real positions inside the image, all box sizes, all image shapes", "why_tests_cant": "all positions, including sub-pixel ones and ones at the edges", "anchors": ["metadetect/detect.py: CatalogMEDSifier._set_cat_and_seg"]}
{"id": "C10", "title": "EDGE bits in stamps mark pixels outside the image", "statement": "A stamp bmask pixel carries the EDGE bit exactly when it is outside the image (for input bmasks without that bit), so downstream weights ignore precisely the pixels with no data.", "quantifier": "every image, every object", "why_tests_cant": "all positions and sizes", "anchors": ["metadetect/detect.py: MEDSInterface.get_cutout", "metadetect/mfrac.py: measure_mfrac"]}
{"id": "C11", "title": "Objects near a low edge are not centred in their stamp", "statement": "A user expects the stamp of a given box size to be centred on the object with EDGE-filled padding on every side that leaves the image; this must hold for both the low and the high edges.", "quantifier": "every object position, box size and image shape", "why_tests_cant": "boundary behaviour over all positions; the tests never look at low edges", "anchors": ["metadetect/detect.py: CatalogMEDSifier._set_cat_and_seg"]}
{"id": "C12", "title": "The detection image is the weighted average of the detection bands", "statement": "The detection image built from several bands is a convex combination of the band images with weights summing to one (so it lies between the smallest and largest band value at each pixel and does not depend on a common rescaling of the weight maps), its noise satisfies 1/noise^2 = sum of the band median weights, and a pixel is excluded from detection exactly when some band's bmask has a no-detect bit there.", "quantifier": "any number of bands, any images, any positive median weights, any bit masks", "why_tests_cant": "all images and band counts", "anchors": ["metadetect/detect.py: MEDSifier._set_detim, MEDSifier._get_image_vars"]}
{"id": "C13", "title": "The apodization kernel is a smooth step between 0 and 1", "statement": "For every apodization scale h>0 the kernel is between 0 and 1, non-decreasing, strictly below 1 for distances inside the mask radius, equal to 1 at and beyond it and equal to 0 once 6 scales inside.", "quantifier": "all reals x, m and all h > 0", "why_tests_cant": "continuum; tests check a few points", "anchors": ["metadetect/masking.py: _ap_kern_kern"]}
{"id": "C14", "title": "Edge apodization touches exactly the frame", "statement": "The edge apodization mask is 1 exactly on the pixels at least ap_range pixels from every edge, is strictly below 1 on every other pixel, stays in [0,1], and is symmetric under left-right and top-bottom reflection, for every image shape and every scale, including images smaller than the frame.", "quantifier": "all image shapes, all positive apodization radii", "why_tests_cant": "all shapes and radii", "anchors": ["metadetect/masking.py: get_ap_range, _build_square_apodization_mask"]}
{"id": "C15", "title": "Edge apodization updates every plane consistently", "statement": "After edge apodization, in every observation of every band, exactly the pixels where the mask is below 1 have the mask bit added, weight 0 and mfrac 1, the image and noise are multiplied by the mask everywhere (hence unchanged elsewhere), and no other bit, weight or mfrac value changes.", "quantifier": "all multi-band observations, all radii, all bit values", "why_tests_cant": "all images and shapes", "anchors": ["metadetect/masking.py: apply_apodization_corrections"]}
{"id": "C16", "title": "Bright object masks are exactly the union of discs", "statement": "Without symmetrization a pixel of the bright object bmask carries the bit if and only if it is strictly within the radius of some listed object; the early rejection of objects far from the image never drops an object that touches a pixel.", "quantifier": "all catalogues (any length), all image shapes, all non-negative radii and real positions", "why_tests_cant": "all catalogues and positions, including objects off the image", "anchors": ["metadetect/masking.py: make_foreground_bmask, _do_mask_foreground, _intersects"]}
{"id": "C17", "title": "Symmetrized masks contain the mask and its 90 degree rotation", "statement": "With symmetrization the bmask equals the OR of the unsymmetrized mask and its 90 degree counter-clockwise rotation, on square images; it raises on images that are not square.", "quantifier": "all catalogues and image shapes", "why_tests_cant": "all shapes and catalogues", "anchors": ["metadetect/masking.py: make_foreground_bmask, make_foreground_apodization_mask"]}
{"id": "C18", "title": "Interpolated and apodized masking agree on which pixels are masked", "statement": "For the same catalogue, the apodization mask is below 1 exactly on the pixels the bmask marks; it stays within [0,1]; it does not depend on the order of the catalogue and adding an object never raises any value.", "quantifier": "all catalogues with non-negative radii, all shapes, all scales h > 0", "why_tests_cant": "two separate implementations that must agree for every catalogue", "anchors": ["metadetect/masking.py: _do_apodization_mask, _do_mask_foreground"]}
{"id": "C19", "title": "Foreground masking changes only masked pixels", "statement": "For each method the image and noise planes are unchanged at every pixel that is not masked; masked pixels get the mask bit, mfrac 1 and weight 0, and their image and noise values are the apodized or interpolated ones (if every pixel is masked the interpolating methods leave image and noise as they are); unmasked weight/mfrac/bmask values are untouched; an unknown method raises.", "quantifier": "all observations, catalogues, methods and interpolator outcomes", "why_tests_cant": "all images, catalogues and interpolator outcomes", "anchors": ["metadetect/masking.py: apply_foreground_masking_corrections, _apply_mask_interp, _apply_mask_apodize"]}
{"id": "C20", "title": "Expanding the mask radius only ever masks more", "statement": "With a positive expansion radius the recorded bmask contains the unexpanded one pixel by pixel; bigger radii give bigger masks.", "quantifier": "all catalogues, all radii", "why_tests_cant": "monotonicity over all inputs", "anchors": ["metadetect/masking.py: make_foreground_bmask, apply_foreground_masking_corrections"]}
{"id": "C21", "title": "The good-pixel search is exact and never overflows its buffers", "statement": "For every image mask the search returns exactly the good pixels within the buffer window of some bad pixel (repetitions are removed before they are used, leaving each once and in row-major order); exactly the bad pixels in row-major order; marks a bad pixel isolated exactly when no good pixel lies within the isolation window; and never runs out of the preallocated space or raises.", "quantifier": "all masks, shapes and non-negative buffer sizes", "why_tests_cant": "loops with preallocated arrays over all masks", "anchors": ["metadetect/interpolate.py: _get_nearby_good_pixels"]}
{"id": "C22", "title": "Interpolation preserves good pixels and replaces bad pixels by their own interpolated value", "statement": "Whenever interpolation returns an image, each pixel that is not bad keeps its value and each bad pixel gets the interpolator's value at that pixel's own coordinates (or its noise fill), with no misalignment; it returns nothing exactly when the bad fraction is above the limit or every pixel is bad.", "quantifier": "all images, weights, masks, flags, limits and interpolator functions", "why_tests_cant": "alignment over all masks and arbitrary interpolator results", "anchors": ["metadetect/interpolate.py: interpolate_image_at_mask"]}
{"id": "C23", "title": "Filling isolated regions never starves the interpolator", "statement": "With isolated pixel filling on, and an isolation window of at least one pixel, an image that is not entirely bad always leaves at least one good pixel for the interpolator, and the values at isolated pixels are the drawn noise.", "quantifier": "all masks and shapes, windows >= 1", "why_tests_cant": "requires a connectivity argument over all masks", "anchors": ["metadetect/interpolate.py: interpolate_image_at_mask"]}
{"id": "C24", "title": "The combined masked fraction is a weighted mean of the bands", "statement": "The per-pixel masked fraction used by the pipeline is the weighted mean of the per-band masked fractions over bands with positive median weight, hence lies between their minimum and maximum, is in [0,1] when they are, is unchanged by rescaling all weights, and never divides by zero; without masked fraction planes it is 0. When no band has a positive weight it is 1 everywhere.", "quantifier": "any number of bands, any masked fraction planes and weights", "why_tests_cant": "all images and weights", "anchors": ["metadetect/metadetect.py: Metadetect._get_mfrac"]}
{"id": "C25", "title": "Mask columns are the OR of the mask over the clipped neighbourhood", "statement": "For every object and region size above 1 the mask column equals the OR of the mask over all pixels within region rows and columns of the object's rounded, clipped position that lie in the image; for region <= 1 it is the single pixel value; it never indexes outside the image and out-of-image positions use the nearest edge pixel.", "quantifier": "all mask images, positions (also outside the image) and region sizes", "why_tests_cant": "all positions, including half-integers and out-of-image ones", "anchors": ["metadetect/metadetect.py: _fill_in_mask_col, _clip_and_round"]}
{"id": "C26", "title": "PSF summary columns are weighted means or flagged", "statement": "The PSF summary columns are the band-weighted means of the PSF fit results with flag 0 when the global flag is 0, every PSF fit succeeded and the total weight is positive; otherwise PSF_FAILURE is set, the global flag bits are kept and the values are not numbers.", "quantifier": "all band counts, PSF fit outcomes, weights, global flags", "why_tests_cant": "all combinations of outcomes and weights", "anchors": ["metadetect/metadetect.py: _get_psf_stats"]}
{"id": "C27", "title": "When the pipeline gives up it says so, otherwise every requested type is present", "statement": "go() leaves a result of None exactly when no pixel is usable, some observation has only zero weights, some observation has all pixels excluded from detection, or metacal's PSF step failed; otherwise the result has exactly one entry for each requested metacal type.", "quantifier": "all observations, configurations and component outcomes", "why_tests_cant": "case analysis over all inputs and failures", "anchors": ["metadetect/metadetect.py: Metadetect.go, Metadetect._go_bands, Metadetect._get_all_metacal"]}
{"id": "C28", "title": "Each output table stacks the band combinations in order", "statement": "For each metacal type the output rows are the concatenation, in the order given, of the rows for each shear/detection band combination; each block has one row per detection in detection order, labelled with its own combination.", "quantifier": "any list of combinations, any detections, with and without colour dependent inputs", "why_tests_cant": "all lists and detection counts", "anchors": ["metadetect/metadetect.py: Metadetect._go_bands, _measure, _add_positions_and_psf"]}
{"id": "C29", "title": "Every requested band combination is run", "statement": "If the numbers of shear band combinations and of detection band combinations differ, the user gets an error rather than missing combinations.", "quantifier": "all pairs of lists", "why_tests_cant": "all list lengths", "anchors": ["metadetect/metadetect.py: Metadetect.__init__, Metadetect.go"]}
{"id": "C30", "title": "Caching of metacal results is transparent", "statement": "Looking up the per-colour data through the cache returns what a fresh computation would return, for every sequence of requests; requests that differ only in the order of the shear bands share an entry; the main observations are computed at most once per set of shear bands.", "quantifier": "all histories of requests", "why_tests_cant": "unbounded histories", "anchors": ["metadetect/metadetect.py: Metadetect._get_mbobs_data"]}
{"id": "C31", "title": "A failed metacal does not poison later requests", "statement": "If computing the data for a colour fails with an exception, a later request for the same colour either recomputes it or fails in the same way.", "quantifier": "all histories with failures", "why_tests_cant": "needs failure injection at every point of every history", "anchors": ["metadetect/metadetect.py: Metadetect._get_mbobs_data"]}
{"id": "C32", "title": "Colour dependent processing with identical inputs changes nothing", "statement": "If every colour key maps to observations with the same content as the main ones, then the colour dependent run gives the same table as the plain run, in the same order.", "quantifier": "all catalogues, colour key functions and deterministic measurements", "why_tests_cant": "all assignments of colours to objects", "anchors": ["metadetect/metadetect.py: Metadetect._go_bands_with_color"]}
{"id": "C33", "title": "Output row integrity: every detection appears exactly once in the colour path", "statement": "In the colour dependent path every detected object contributes exactly one row, measured with the data of its own colour key, and rows keep detection order.", "quantifier": "all detection lists and all colour key functions", "why_tests_cant": "partitioning and reordering over all key assignments", "anchors": ["metadetect/metadetect.py: Metadetect._go_bands_with_color, _measure"]}
{"id": "C34", "title": "Configuration is validated before any work", "statement": "Construction either raises or selects a complete fitter configuration: every accepted model has a fitter with the configured aperture; unsupported models and colour arguments given without each other raise; for every accepted configuration construction does not fail later on missing settings.", "quantifier": "all configuration dictionaries", "why_tests_cant": "all configurations", "anchors": ["metadetect/metadetect.py: Metadetect.__init__, _set_config, _set_fitter"]}
{"id": "C35", "title": "A clean flag means every shear band contributed", "statement": "If the weighted-average fit of an object has flag 0 then every shear band had data, its object and PSF fits succeeded, its weight was positive, and all averages were formed with a positive total weight.", "quantifier": "any number of bands, any fit outcomes, weights and flags", "why_tests_cant": "exponentially many combinations of per band outcomes", "anchors": ["metadetect/fitting.py: fit_mbobs_wavg, _fit_obslist, _fit_obs, _sum_bands_wavg, _combine_fit_results_wavg"]}
{"id": "C36", "title": "PSF failures propagate to the object flags", "statement": "Whenever the PSF columns carry any flag the object flags contain PSF_FAILURE, and the overall flag is the OR of the object flag and all band flux flags.", "quantifier": "all outcomes", "why_tests_cant": "all combinations of outcomes", "anchors": ["metadetect/fitting.py: _combine_fit_results_wavg"]}
{"id": "C37", "title": "Multi-band moments are weighted means", "statement": "With no flags the reported moments come from the weighted mean over the shear bands of the normalised band moments, with the matching propagated covariance; they do not change when all weights are multiplied by a positive constant, when bands are permuted, or when non-shear bands are changed; with one shear band they are that band's own normalised moments.", "quantifier": "any number of bands, any values, any positive weights", "why_tests_cant": "algebraic laws over all values", "anchors": ["metadetect/fitting.py: _sum_bands_wavg, _combine_fit_results_wavg"]}
{"id": "C38", "title": "A star has size ratio one in every band combination", "statement": "If in each shear band the object's moments are a positive multiple of the PSF moments (a star of any colour), the averaged PSF moments equal the averaged object moments, so the unregularized size ratio is exactly 1, whatever the fluxes and weights.", "quantifier": "any number of bands, fluxes, weights and PSF moments", "why_tests_cant": "algebraic law over all values", "anchors": ["metadetect/fitting.py: _sum_bands_wavg, _combine_fit_results_wavg"]}
{"id": "C39", "title": "Shear bands that do not exist are reported", "statement": "If a requested shear band index is not present in the observations then the object flags are non-zero.", "quantifier": "all band counts and shear band lists", "why_tests_cant": "all index lists", "anchors": ["metadetect/fitting.py: fit_mbobs_wavg, fit_mbobs_list_joint"]}
{"id": "C40", "title": "The band label identifies the band combination", "statement": "Different lists of shear (or detection) bands get different labels in the output.", "quantifier": "all lists of band indices", "why_tests_cant": "all lists", "anchors": ["metadetect/fitting.py: fit_mbobs_wavg", "metadetect/metadetect.py: _add_positions_and_psf"]}
{"id": "C41", "title": "Size regularization changes only the shape", "statement": "Regularizing moments leaves fluxes, sizes and the numerator shape moments unchanged, reduces to the plain result when the regularization is zero, makes the second moment larger for positive flux, and bad flux or variance always sets the corresponding flag.", "quantifier": "all moments, covariances, fluxes, regularizations", "why_tests_cant": "all values including negative and NaN", "anchors": ["metadetect/fitting.py: _make_mom_res"]}
{"id": "C42", "title": "The band coadd is the weighted mean with propagated variance", "statement": "The coadd over shear bands is a convex combination per pixel, has the same value as each input if all agree, its weight is zero exactly on pixels where some input weight is zero or negative, and elsewhere equals the inverse of the propagated variance, never exceeding the sum of the input weights; its masks are the OR of the inputs' masks and its masked fraction the weighted mean.", "quantifier": "any number of bands and observations, any planes", "why_tests_cant": "all images", "anchors": ["metadetect/fitting.py: make_coadd_obs"]}
{"id": "C43", "title": "Coadds fail only for documented reasons", "statement": "For existing shear bands with data and non-negative weights, make_coadd_obs returns no observation and a flag exactly when the bands disagree in geometry or PSF, when no pixel has a positive weight in every band, or when an optional plane is carried by only some of them; otherwise it returns an observation and flag 0. A shear band that does not exist is always reported.", "quantifier": "all observation lists", "why_tests_cant": "all outcomes", "anchors": ["metadetect/fitting.py: make_coadd_obs"]}
{"id": "C44", "title": "Failed fits keep their defaults and are flagged", "statement": "For the Gaussian and adaptive moment fitters an object with flag 0 has object and PSF results taken from successful fits; a failed object or PSF fit always leaves a non-zero flag, and columns that depend on a failed fit stay not-a-number.", "quantifier": "all fit outcomes, all band counts", "why_tests_cant": "all combinations of outcomes", "anchors": ["metadetect/fitting.py: fit_mbobs_gauss, fit_mbobs_admom, fit_mbobs_list_joint"]}
{"id": "C45", "title": "Weight symmetrization zeros whole rotation orbits", "statement": "After symmetrization a weight is positive exactly if its whole four-fold rotation orbit was positive, and is then unchanged; the pattern of positive weights is four-fold symmetric. For non-negative weights all other weights become zero and repeating the operation changes nothing.", "quantifier": "all square weight maps", "why_tests_cant": "all maps", "anchors": ["metadetect/fitting.py: symmetrize_obs_weights"]}
{"id": "C46", "title": "Combining fit results keeps every column of every row", "statement": "combine_fit_res gives one row per object containing the columns of all results with their values, returns nothing exactly when all inputs are missing, and raises if lengths differ or if a repeated column disagrees.", "quantifier": "any list of results", "why_tests_cant": "all lists of tables", "anchors": ["metadetect/fitting.py: combine_fit_res"]}
{"id": "C47", "title": "List fitters return one row per object in order", "statement": "The list level fit functions return one row per input object, in input order, and nothing for an empty list.", "quantifier": "all lists", "why_tests_cant": "all list lengths", "anchors": ["metadetect/fitting.py: fit_mbobs_list_wavg, fit_mbobs_list_joint"]}
{"id": "C48", "title": "Masked fraction per object is a weighted mean over in-image pixels", "statement": "measure_mfrac returns, for each object, 1 when it has no valid stamp or the measurement fails, and otherwise the mean over in-image stamp pixels, so it is in [0,1] when the map is.", "quantifier": "all maps, positions and box sizes", "why_tests_cant": "all positions and maps", "anchors": ["metadetect/mfrac.py: measure_mfrac"]}
{"id": "C49", "title": "User configuration overrides defaults and nothing else", "statement": "The LSST configuration returned for a user dictionary has the user's value for each supplied option (merging nested sections key by key), the default for every other option, rejects unknown top level options, and leaves both the defaults and the user's dictionary unmodified.", "quantifier": "all user dictionaries", "why_tests_cant": "all nested dictionaries", "anchors": ["metadetect/lsst/configs.py: get_config, verify_*", "metadetect/lsst/defaults.py"]}
{"id": "C50", "title": "Task configuration overrides take effect", "statement": "Every key accepted by the config override function changes the task configuration to the given value; keys it does not know raise.", "quantifier": "all override dictionaries", "why_tests_cant": "all dictionaries", "anchors": ["metadetect/lsst/util.py: override_config"]}
{"id": "C51", "title": "Shear band names map to the right indices", "statement": "Indices extracted for requested shear bands select exactly those bands, in the requested order; None selects all; a missing band raises.", "quantifier": "all band lists and requests", "why_tests_cant": "all lists", "anchors": ["metadetect/lsst/util.py: extract_shear_band_indices"]}
{"id": "C52", "title": "LSST stamp boxes are centred, odd sized, or clipped", "statement": "The stamp bounding box has odd size 2*(stamp_size//2)+1 centred on the object's integer position when it fits; with clipping the box is exactly the part inside the image; without clipping a box that leaves the image raises.", "quantifier": "all positions, stamp sizes, image boxes", "why_tests_cant": "all positions", "anchors": ["metadetect/lsst/util.py: get_bbox, get_integer_center", "metadetect/lsst/model_subtractor.py: get_bbox"]}
{"id": "C53", "title": "Odd trimming is lossless on odd images", "statement": "Trimming gives a square odd image containing only input pixels at the same offset, leaves odd square images unchanged, and keeps a centre when needed.", "quantifier": "all shapes", "why_tests_cant": "all shapes", "anchors": ["metadetect/lsst/util.py: trim_odd_image"]}
{"id": "C54", "title": "Exposure to observation conversion round trips", "statement": "Converting an observation to an exposure and back gives the same image, positive weights, masks and noise; zero weight pixels come back as zero weight.", "quantifier": "all observations", "why_tests_cant": "all pixel values", "anchors": ["metadetect/lsst/util.py: obs2exp, exp2obs"]}
{"id": "C55", "title": "LSST coadds are weighted means of good pixels", "statement": "Each coadd pixel is the weighted mean of the bands that have positive variance there, with variance equal to the propagated value; masks are OR-ed.", "quantifier": "any number of exposures, any planes", "why_tests_cant": "all planes", "anchors": ["metadetect/lsst/util.py: coadd_exposures"]}
{"id": "C56", "title": "Mask columns in LSST outputs come from the object's own pixel", "statement": "The ormask of each object is the OR over bands of the mask at its own pixel, and rows keep order.", "quantifier": "all catalogues, masks and boxes", "why_tests_cant": "all positions, including off-image ones", "anchors": ["metadetect/lsst/metadetect.py: add_ormask, combine_ormasks", "metadetect/lsst/measure.py: measure, get_bmask"]}
{"id": "C57", "title": "LSST masked fractions are measured on the object's own neighbourhood", "statement": "The weighted masked fraction of an object uses the mfrac pixels around that object (rows are y, columns are x).", "quantifier": "all positions and maps", "why_tests_cant": "all positions", "anchors": ["metadetect/lsst/metadetect.py: measure_weighted_mfrac, add_mfrac, get_mfrac_mbexp"]}
{"id": "C58", "title": "Failure to fit the original PSF is flagged, not fatal", "statement": "If the original PSF fit fails in any band the run proceeds with flags set.", "quantifier": "all fit outcomes", "why_tests_cant": "all outcomes", "anchors": ["metadetect/lsst/metadetect.py: fit_original_psfs_mbexp"]}
{"id": "C59", "title": "Subtracted models can be added back exactly and are always removed again", "statement": "While a source is added its pixels are exactly image-minus-other-models; when the block is left, by return or exception, the subtracted image is what it was before; adding all models back gives the original image.", "quantifier": "all histories of add/remove with exceptions, all sources", "why_tests_cant": "all histories and crash points", "anchors": ["metadetect/lsst/model_subtractor.py: ModelSubtractor.add_source, _add_or_subtract_source, _build_subtracted_image"]}
{"id": "C60", "title": "Noise replacement is undone on exit and re-done on failure", "statement": "The noise replacer context leaves the exposures as they were before on exit, and after a source was exposed its pixels are noise again whether or not the body raised.", "quantifier": "all histories with exceptions", "why_tests_cant": "all crash points", "anchors": ["metadetect/lsst/util.py: ContextNoiseReplacer, MultibandNoiseReplacer"]}
{"id": "C61", "title": "Per-object output rows of the LSST measurement describe one object each", "statement": "Each output row combines the position, mask value and fit results of the same source, and there is exactly one row per non-parent source.", "quantifier": "all source catalogues including parents and children", "why_tests_cant": "all catalogues", "anchors": ["metadetect/lsst/measure.py: measure, get_output, get_bmask"]}
{"id": "C62", "title": "Detection with unusable data returns an empty result", "statement": "When no coadd can be made the LSST detection returns an empty catalogue to its caller rather than failing.", "quantifier": "all exposures", "why_tests_cant": "all inputs", "anchors": ["metadetect/lsst/measure.py: DetectAndDeblendTask.run", "metadetect/lsst/metadetect.py: detect_deblend_and_measure"]}
{"id": "C63", "title": "Metacal fixed-noise variance is doubled consistently", "statement": "The fix-noise metacal exposures contain the sheared image plus the counter-rotated sheared noise and twice the variance, for exactly the requested types; shear types map to shears of the documented size and sign.", "quantifier": "all exposures and type lists", "why_tests_cant": "all types and images", "anchors": ["metadetect/lsst/metacal_exposures.py: get_metacal_exps_fixnoise, _get_metacal_exp, get_shear_from_type"]}
{"id": "C64", "title": "Background means accumulate over all iterations", "statement": "After iterative sky subtraction the recorded background equals the sum of the levels subtracted in all iterations, the image is lowered by exactly that amount, and fewer than one iteration raises.", "quantifier": "all numbers of iterations and level sequences", "why_tests_cant": "all iteration counts", "anchors": ["metadetect/lsst/skysub.py: IterateDetectionSkySubTask.run, iterate_detection_and_skysub"]}
{"id": "C65", "title": "User detection thresholds are honoured", "statement": "The detection threshold the user puts in the configuration is the one used; the caller's configuration is not modified.", "quantifier": "all configurations", "why_tests_cant": "all configurations", "anchors": ["metadetect/lsst/skysub.py: subtract_sky_mbexp", "metadetect/lsst/measure.py: get_detect_and_deblend_task"]}
{"id": "C66", "title": "LSST edge and bright masks update every plane consistently", "statement": "Apodized masking in exposures sets the mask plane and infinite variance exactly where the apodization mask is below 1, multiplies image and noise by the mask, sets mfrac to 1 there, and leaves everything else unchanged.", "quantifier": "all exposures and catalogues", "why_tests_cant": "all planes", "anchors": ["metadetect/lsst/masking.py: apply_apodized_edge_masks_mbexp, apply_apodized_bright_masks_mbexp"]}
{"id": "C67", "title": "Construction leaves the caller's configuration alone", "statement": "Constructing a Metadetect object does not change the configuration dictionaries the caller passed in, so that the same configuration can be used for another object.", "quantifier": "all accepted configuration dictionaries", "why_tests_cant": "aliasing: whether a nested dictionary is written depends on which keys are missing in it", "anchors": ["metadetect/metadetect.py: _set_config, _set_fitter"]}
{"id": "C68", "title": "Running go() again gives the same result", "statement": "A second call of go() on the same object leaves the same result as the first one and does not run PSF fits or metacal again.", "quantifier": "all observations, configurations, band combinations and colour inputs, deterministic components", "why_tests_cant": "depends on the cached state left by the whole first run", "anchors": ["metadetect/metadetect.py: go, _get_mbobs_data"]}
{"id": "C69", "title": "Stamps for LSST measurements weight pixels by their variance", "statement": "A stamp cut from an exposure carries the weight 1/median of the positive variances, gives zero weight to pixels without valid data (as its documentation says), and is refused exactly when no pixel has a positive variance.", "quantifier": "all exposures, variance planes and sources", "why_tests_cant": "all variance planes", "anchors": ["metadetect/lsst/util.py: extract_obs, _extract_weight"]}
{"id": "C70", "title": "The local jacobian keeps the pixel area and the position", "statement": "The jacobian attached to an observation has, up to sign, the determinant of the linearized wcs at the requested position, and its centre is that position relative to the corner of the bounding box; the integer centre used for whole images lies inside the box.", "quantifier": "all wcs, boxes and positions", "why_tests_cant": "all wcs matrices", "anchors": ["metadetect/lsst/util.py: get_jacobian, get_integer_center"]}
{"id": "C71", "title": "Extraction of multiband coadd data keeps the original masks", "statement": "The ormasks returned for the bands are the mask planes the exposures had before the call, although the masks of all the exposures are zeroed by it; no other mask changes.", "quantifier": "any number of bands, any sharing of exposures", "why_tests_cant": "aliasing between exposures", "anchors": ["metadetect/lsst/util.py: extract_multiband_coadd_data"]}
{"id": "C72", "title": "Coadds of observations use good pixels only", "statement": "Each pixel of the coadd of the first observations of all bands is the weighted mean of the bands with positive weight there, with weights the median positive weight of the band; weight maps add up.", "quantifier": "any number of bands, any planes", "why_tests_cant": "all planes", "anchors": ["metadetect/lsst/util.py: coadd_mbobs"]}
{"id": "C73", "title": "The deblender chosen in the configuration is the one used", "statement": "Both LSST entry points detect with the deblender that their configuration names, and with the SDSS one when none is named.", "quantifier": "all accepted user configurations", "why_tests_cant": "all combinations of options", "anchors": ["metadetect/lsst/metadetect.py: run_metadetect, detect_deblend_and_measure", "metadetect/lsst/photometry.py: run_photometry", "metadetect/lsst/measure.py: get_detect_and_deblend_task"]}
{"id": "C74", "title": "One annotated table per sheared image in the LSST run", "statement": "A run of the LSST task that returns has exactly one entry per metacalibration image, under its name and in its order; each is either absent because nothing was measured there or holds the measured objects, unchanged and in order, with the mask, masked fraction and original PSF columns filled.", "quantifier": "all runs, images, detection outcomes, masks and PSF statistics", "why_tests_cant": "all outcomes of every image in all combinations", "anchors": ["metadetect/lsst/metadetect.py: MetadetectTask.run, add_mfrac, add_ormask, add_original_psf"]}
{"id": "C75", "title": "The optional inputs of the LSST run are optional", "statement": "Leaving out the masks or the masked fractions, as the signature allows, gives the tables obtained with no bit set and no pixel masked.", "quantifier": "all runs without the optional inputs", "why_tests_cant": "every run", "anchors": ["metadetect/lsst/metadetect.py: MetadetectTask.run, run_metadetect, combine_ormasks, get_mfrac_mbexp"]}
{"id": "C76", "title": "LSST stamp flags say why an object was not measured", "statement": "For every object the stamp flag is EDGE_HIT exactly when its stamp does not fit in the exposure, ZERO_WEIGHTS exactly when it fits but some band has no usable variance there, and 0 exactly when it was measured; unmeasured objects carry NO_ATTEMPT flags and NaN values, measured ones the fits of their own stamps.", "quantifier": "all catalogues, peak positions, stamp sizes, variance maps and fit outcomes", "why_tests_cant": "all positions and variance patterns, including mixed infinite and finite ones", "anchors": ["metadetect/lsst/measure.py: measure", "metadetect/lsst/mbobs_extractor.py: MBObsExtractor.get_mbobs", "metadetect/lsst/util.py: get_bbox, extract_obs"]}
{"id": "C77", "title": "LSST positions are always reported", "statement": "Each row gives the image position, its offset from the peak and the sky position of the object; an object without a centroid is reported at its peak.", "quantifier": "all catalogues and centroids, including failed ones", "why_tests_cant": "all centroid outcomes", "anchors": ["metadetect/lsst/measure.py: get_output"]}
{"id": "C78", "title": "LSST tables always have the same columns", "statement": "Every row has the same columns in the same order whether or not the object could be measured; columns filled in later hold their documented defaults and the mask column lacks only the detection bit.", "quantifier": "all catalogues and measurement outcomes", "why_tests_cant": "all combinations of outcomes", "anchors": ["metadetect/lsst/measure.py: _get_combined_struct, get_output_struct, get_output"]}
{"id": "C79", "title": "Stamps of the extractor are cut out around the right source", "statement": "Asking the extractor for a source without children gives one observation per band with the pixels of that band around the source's peak; any other id is rejected.", "quantifier": "all catalogues, ids and exposures", "why_tests_cant": "all catalogues", "anchors": ["metadetect/lsst/mbobs_extractor.py: MBObsExtractor"]}
{"id": "C80", "title": "Stamps of a model subtractor: which pixels and which size", "statement": "A stamp of type 'original' holds the pixels of the exposures given to the subtractor whatever has been subtracted or added since, one of type 'deblended' the current pixels; its box is the square of half width stamp_size // 2 around the first peak of the source, clipped to the exposure or refused with LengthError when it does not fit; without a stamp size the box of the footprint is used; an unknown id raises ValueError and an unknown type AssertionError.", "quantifier": "all subtractors, ids, stamp sizes, types, all states", "why_tests_cant": "any history of added sources, any position near the edge", "anchors": ["metadetect/lsst/model_subtractor.py: ModelSubtractor.get_stamp, get_bbox, get_model, check_source_id"]}
{"id": "C81", "title": "A model subtractor can be made and its children are the modelled sources", "statement": "For exposures and model data with the same bands a subtractor can be made, whatever the number of bands, and it lists exactly the deblended sources, in the order of the model data.", "quantifier": "all numbers of bands, all catalogues and models", "why_tests_cant": "number of bands and sources unbounded", "anchors": ["metadetect/lsst/model_subtractor.py: ModelSubtractor.__init__, _build_subtracted_image, child_ids, scarletModelToHeavy"]}
{"id": "C82", "title": "The noise image has the median variance of the good pixels", "statement": "The noise drawn for replacing sources has, in every pixel, the median variance of the pixels whose image and variance are finite (minus the photon noise of the data when that is asked for), and the variance plane of the noise image is that number everywhere.", "quantifier": "all images and variance planes, with non finite pixels", "why_tests_cant": "all pixel values and shapes", "anchors": ["metadetect/lsst/util.py: get_noise_image"]}
{"id": "C83", "title": "Weighted-average fits: bands that cannot be measured", "statement": "A band without observations, without positive weights or with a forbidden mask bit gets the flag that names the cause and nan fluxes, and the row carries the flag; if the band is a shear band nothing is measured and both the object and PSF flags carry it. Any other band reports the flux, error and flag of its own fit, used for shear or not. The size ratio is the ratio of the two size columns for a clean object and nan when the PSF is flagged.", "quantifier": "all numbers of bands, all shear band lists, all combinations of missing, weightless, masked and good bands, all fit results", "why_tests_cant": "all combinations of good and bad bands and all fit outcomes", "anchors": ["metadetect/fitting.py: fit_mbobs_wavg, _fit_obslist, _fit_obs, _combine_fit_results_wavg, _sum_bands_wavg"]}
{"id": "C84", "title": "Added columns belong to the row's own position, bands and colour", "statement": "In every row of every table of a run, the position columns are those of one detection of the row's band combination, the unsheared position is the one for the row's metacal type, the mask columns have a bit exactly when an observation of the shear bands has it in the configured window around the nearest pixel, the masked fractions are those at the two positions, the PSF columns come from the PSF fits of the shear bands (or the PSF failure flag), and det_bands names the detection bands; with colours, all of it for the observations of the detection's own colour.", "quantifier": "all images, masks, band combinations, colours, detections, metacal types and histories of the object", "why_tests_cant": "all images, detections and histories", "anchors": ["metadetect/metadetect.py: Metadetect._add_positions_and_psf, _get_mbobs_data, _get_ormask_and_bmask, _get_mfrac, go, _fill_in_mask_col, _get_psf_stats"]}
{"id": "C85", "title": "With scarlet models every source is measured with the other models removed", "statement": "measure() with model data returns one row per source of the model data, in that order; each source that has a usable stamp is fitted on the caller's pixels minus the models of all other sources (with the caller's weights, masks, jacobian and psf), whatever happened to the sources measured before it; sources at the edge or without weights get the corresponding flag and no results; the caller's exposures are not modified.", "quantifier": "all exposures, catalogues, model data and stamp sizes, and all patterns of sources whose stamp fails", "why_tests_cant": "the subtractor's image is modified in place from source to source; whether an earlier source leaves something behind depends on the whole history of failures", "anchors": ["metadetect/lsst/measure.py:measure", "metadetect/lsst/measure.py:_get_extractor", "metadetect/lsst/model_subtractor.py:ModelSubtractor.get_mbobs", "metadetect/lsst/model_subtractor.py:ModelSubtractor.add_source", "metadetect/lsst/util.py:copy_mbexp"]}
{"id": "C86", "title": "run_photometry returns the measurements of the objects detected with the requested options", "statement": "run_photometry returns None when nothing without children is detected; otherwise one row per detected object without children, where the detection uses the requested threshold on the coadd of the exposures (sky subtracted in two iterations if and only if that was asked for, with the same threshold); each row holds the object's position, its fits on stamps of the requested size over the requested shear bands with the requested weight fwhm, the bitwise or of the given masks at the object's own pixel, and the weighted mean of the bands' psf fits. An unknown option raises ValueError before anything is changed; the caller's option dictionary is never changed; the caller's exposures are changed by nothing but the requested sky subtraction.", "quantifier": "all exposures, numbers of bands, options, masks, masked fractions, detections and fit results, including failures", "why_tests_cant": "the result depends on every option, band combination and failure of the stack; tests use two or three configurations on simulated images and cannot see a changed input", "anchors": ["metadetect/lsst/photometry.py:run_photometry", "metadetect/lsst/skysub.py:subtract_sky_mbexp", "metadetect/lsst/metadetect.py:add_ormask", "metadetect/lsst/metadetect.py:add_original_psf", "metadetect/lsst/metadetect.py:fit_original_psfs_mbexp", "metadetect/lsst/configs.py:get_config"]}
{"id": "C87", "title": "A whole LSST metadetection run returns, for every requested shear type, the table of the correspondingly sheared exposures", "statement": "run_metadetect(mbexp, noise_mbexp, mfrac_mbexp, ormasks, config, get_psf_stats) returns one entry for every requested metacal type and, when asked for, the psf statistics. The table of a type lists the objects found with the requested threshold on the coadd of the exposures that were lowered by the sky if that was requested, deconvolved, sheared by the documented shear of that type, reconvolved and given fixed noise: one row for each object without children (with the scarlet deblender, for each model, measured on the pixels minus the models of all others), with the fits for the requested shear bands, the union of the or-masks at the object's own pixel and the mean psf of the original exposures. It is None exactly when there is no such object. The caller's exposures change at most by the requested sky subtraction, whatever the outcome; an unknown option or type raises before any change.", "quantifier": "all exposures, masks, noise, configurations, numbers of bands and objects, and all behaviours of the third-party detection, deblending, drawing and fitting", "why_tests_cant": "a test sees one image, one configuration and one set of detections; the property ranges over all of them and over every way the parts can interact", "anchors": ["metadetect/lsst/metadetect.py:run_metadetect", "metadetect/lsst/metadetect.py:MetadetectTask.run", "metadetect/lsst/metadetect.py:detect_deblend_and_measure", "metadetect/lsst/metacal_exposures.py:get_metacal_mbexps_fixnoise"]}
{"id": "C88", "title": "A whole metadetection run returns, for every metacal type, the measurements made on that type's own images", "statement": "do_metadetect(config, mbobs, rng, shear_band_combs, color_key_func, color_dep_mbobs, det_band_combs) returns None exactly when the images have no usable pixel, an observation without weight or an excluded one, or metacal cannot fit a psf; a rejected configuration raises the constructor's exception. Otherwise there is one table per requested metacal type. The table of a type lists, for the pairs of shear and detection bands in order, the objects the source extractor finds in the weighted mean of the detection bands of that type's images, with the no-detect bits masked; each object is measured with every configured fitter on stamps of the smallest permitted size, cut from that type's images around the detected position. With colour arguments, the colour of an object comes from its stamps in that type's main images and it is measured on the images of its colour. Colours that all lead to the content of the main images change nothing.", "quantifier": "every set of images, configuration, band combinations and colour functions", "why_tests_cant": "Tests run a few simulated scenes and look at the averages of the result; which images and stamps a row came from is not visible there, and must hold for every detection list and combination of bands.", "anchors": ["metadetect/metadetect.py:do_metadetect", "metadetect/metadetect.py:Metadetect.go", "metadetect/metadetect.py:Metadetect._measure", "metadetect/detect.py:MEDSifier", "metadetect/detect.py:CatalogMEDSifier"]}
{"id": "C89", "title": "A measurement without flags used a complete stamp without forbidden mask bits", "statement": "When a row of a table returned by do_metadetect has a zero flag for some fitter, then in every band of the images it was measured on no pixel of the object's stamp has one of the bits of bmask_flags, and when these include the edge bit 2^30 no pixel of the stamp lies outside of the image. The stamp is the one centred on the object.", "quantifier": "every set of images, configuration and detection list", "why_tests_cant": "A test checks a few positions; the property ranges over all positions, stamp sizes and mask patterns.", "anchors": ["metadetect/metadetect.py:do_metadetect", "metadetect/fitting.py:_fit_obs", "metadetect/detect.py:MEDSInterface.get_cutout", "metadetect/detect.py:CatalogMEDSifier"]}
{"id": "C90", "title": "Bright object masks are honoured by detection and statistics whatever mask planes other code registers", "statement": "Mask planes are named bits in a table that is global to the process and that other code extends. However the calls interleave, a plane keeps its bit and no two planes share one; the lists of planes skipped by detection and by image statistics are always the documented ones and all of them are registered when they are returned (asking only ever adds BRIGHT, twice is once, and it fails exactly when BRIGHT is missing and the table is full). A pixel inside the circle of a bright object is skipped by any later detection or statistics, and masking bright objects or apodizing the edges makes no other pixel skipped.", "quantifier": "every table of planes, every history of registrations and mask calls, every exposure and every catalogue of bright objects", "why_tests_cant": "which bit a name gets depends on everything that was registered before in the process; a test sees one order of imports and calls", "anchors": ["metadetect/lsst/util.py:get_stats_mask", "metadetect/lsst/util.py:get_detection_mask", "metadetect/lsst/masking.py:apply_apodized_bright_masks_mbexp", "metadetect/lsst/masking.py:apply_apodized_edge_masks_mbexp"]}
{"id": "C91", "title": "A stamp of the extractor shows the same pixels of the sky in every band, and what clipping changes", "statement": "The extractor returns for a source without children one observation per band in the order of the bands, all cut from one box. Without clipping the box is every pixel within half the stamp size of the first peak, and the call is refused with a LengthError whenever one of them lies outside of the exposures; with clipping it is exactly those of them that lie in the exposures, and a peak inside is never refused for being near an edge. Pixel values and mask bits are those of the exposure at the same position of the sky plane, the weight is that of the part, the jacobian is centred on the object and the PSF is the one at its centroid. An id that is not that of a source without children is a ValueError in every method.", "quantifier": "every set of aligned exposures, catalogue, stamp size, clip argument and id", "why_tests_cant": "offsets between box, stamp and sky plane only show for some corners, peaks near an edge or odd and even sizes", "anchors": ["metadetect/lsst/util.py:get_stamp_mbobs", "metadetect/lsst/util.py:get_bbox", "metadetect/lsst/mbobs_extractor.py:MBObsExtractor"]}
{"id": "C92", "title": "The detection configuration of the caller is read, never changed, by any number of detections", "statement": "For every history of detections, with the same or different configuration dictionaries or none: no dictionary of the caller and no default of sxdes is changed, each detection uses the threshold of its own dictionary and sees all other entries (the kernel as an array, the threshold removed) in a dictionary of its own, a missing threshold or kernel is a KeyError each time, and a detection without configuration uses the defaults.", "quantifier": "every store of dictionaries and every sequence of constructions", "why_tests_cant": "a test that builds one detector cannot see that the second one lost the threshold, nor an alias between two detectors", "anchors": ["metadetect/detect.py:MEDSifier"]}
{"id": "C93", "title": "Fitters are chosen by name, with the configured width, and everything else is refused", "statement": "The lsst helper returns an adaptive moments runner for 'am', the name itself for 'gauss', and for 'wmom', 'ksigma' and 'pgauss' the fitter of that kind with the configured weight fwhm; a missing entry is a KeyError and any other name a ValueError, never a default.", "quantifier": "every configuration", "why_tests_cant": "a test tries the known names; the property ranges over all names and missing entries", "anchors": ["metadetect/lsst/util.py:get_fitter", "metadetect/lsst/measure.py:get_pgauss_fitter"]}
{"id": "C94", "title": "Which random numbers a run uses", "statement": "In do_metadetect without colours and with moments fitters only (wmom, ksigma, pgauss), the random number generator is used for exactly two things, in this order: the PSF fits of the observations passed in, and metacal on them. Detection, measurement, the number of band combinations and repeated accesses to the results draw nothing, so two seeds that give the same PSF fits and metacal images give identical tables for every history of calls. If the generator has no influence on any value, the result is that of the driver without generator, colours and joint fitters included.", "quantifier": "all observations, detections, band combinations, fitters, PSF fit, metacal, joint fit and generator behaviours, seeds and histories of requests and go() calls", "why_tests_cant": "a test fixes one generator and one seed; the claim is about every generator and every order of calls", "anchors": ["metadetect/metadetect.py:Metadetect.go", "metadetect/metadetect.py:Metadetect._get_mbobs_data", "metadetect/metadetect.py:do_metadetect"]}
{"id": "C95", "title": "Moments columns do not depend on the other fitters (no colours)", "statement": "Without colours, two runs of do_metadetect with the same seed whose configurations differ only in the list of fitters give tables for the same shear types with the same rows in the same order; the position, mask, mfrac and PSF columns are the same, and so are the columns of each moments fitter that both configurations have, although joint fitters (am, admom, gauss) use random numbers between the measurements.", "quantifier": "all observations, pairs of fitter lists, band combinations, generators and seeds", "why_tests_cant": "tests compare one or two configurations; the order in which random numbers are used matters for every pair", "anchors": ["metadetect/metadetect.py:Metadetect.go", "metadetect/metadetect.py:Metadetect._go_bands_with_color", "metadetect/metadetect.py:Metadetect._measure", "metadetect/fitting.py:fit_mbobs_list_joint"]}
{"id": "C96", "title": "Moments columns do not depend on the other fitters (colours)", "statement": "The same as the previous property with color_key_func and color_dep_mbobs given.", "quantifier": "all observations with colours, pairs of fitter lists, generators and seeds", "why_tests_cant": "needs a comparison of runs with different fitters for every colour assignment", "anchors": ["metadetect/metadetect.py:Metadetect._go_bands_with_color", "metadetect/metadetect.py:Metadetect._get_mbobs_data"]}
{"id": "C97", "title": "Further band combinations only append rows", "statement": "Adding combinations at the end of shear_band_combs and det_band_combs only adds rows at the end of each table: the rows of the combinations before them are the same, for any fitters and also with colours, since random numbers for the added combinations are drawn after all others. A run that succeeds with the longer lists succeeds with the shorter ones.", "quantifier": "all observations, colours, fitters, generators, seeds, and pairs of lists of combinations", "why_tests_cant": "tests use a couple of combination lists; later combinations could change earlier rows through the caches or the generator", "anchors": ["metadetect/metadetect.py:Metadetect.go", "metadetect/metadetect.py:Metadetect._go_bands"]}
{"id": "C98", "title": "Calling go() again", "statement": "After a successful go() a second go() leaves the result as it is and uses no random numbers.", "quantifier": "all observations, colours, fitters, generators and states", "why_tests_cant": "repeating go() is not tested with any generator, let alone all of them", "anchors": ["metadetect/metadetect.py:Metadetect.go", "metadetect/metadetect.py:Metadetect._get_mbobs_data"]}
{"id": "C99", "title": "Detection with the scarlet deblender", "statement": "With the scarlet deblender every band is deconvolved under its own name for the same detected sources, and the deblender gets all bands; when nothing is detected the tables are empty. This works for any set of bands.", "quantifier": "all exposures, bands, detections and deblenders", "why_tests_cant": "tests run scarlet with one or two fixed sets of bands", "anchors": ["metadetect/lsst/measure.py:DetectAndDeblendTask._run_with_scarlet", "metadetect/lsst/util.py:make_deconvolved_mbexp", "metadetect/lsst/measure.py:_get_extractor"]}
{"id": "C100", "title": "Only fitted columns depend on the seed (run_metadetect)", "statement": "Two calls of run_metadetect that differ in the random number generator only give the same keys, the same objects in the same order, and the same values in every column but those of the Gaussian fit and the size and shape of the original PSF; the exposures are left the same. A generator that has no influence on the fits has none on the result.", "quantifier": "all exposures, configurations, generators and pairs of seeds", "why_tests_cant": "tests fix the seed; no test compares all columns for all seeds", "anchors": ["metadetect/lsst/metadetect.py:run_metadetect", "metadetect/lsst/metadetect.py:fit_original_psfs_mbexp", "metadetect/lsst/measure.py:MeasureTask.run"]}
{"id": "C101", "title": "Tables do not depend on the other metacal types", "statement": "With the same seed, asking run_metadetect for further types at the end of the list leaves the tables of the other types as they are; a type that two runs have in common has the same objects and, but for the Gaussian fit, the same columns.", "quantifier": "all exposures, configurations, generators, seeds and pairs of lists of types", "why_tests_cant": "tests use one or two lists of types", "anchors": ["metadetect/lsst/metadetect.py:MetadetectTask.run", "metadetect/lsst/metacal_exposures.py:get_metacal_mbexps_fixnoise"]}
{"id": "C102", "title": "Only fitted columns depend on the seed (run_photometry)", "statement": "Two calls of run_photometry that differ in the random number generator only give the same objects in the same order, the same values in every column but those of the Gaussian fit and the size and shape of the original PSF, and have the same effect on the configuration and the exposures.", "quantifier": "all exposures, configurations, generators and pairs of seeds", "why_tests_cant": "tests fix the seed", "anchors": ["metadetect/lsst/photometry.py:run_photometry"]}
{"id": "C103", "title": "The Gaussian measurement of an object does not depend on the other objects of the list", "statement": "fit_mbobs_list_joint with fitter_name 'gauss' gives each object the row that fit_mbobs_gauss gives it alone, for a fitter without random influence. The code makes one prior from the first stamp of the first object, so this holds for lists whose stamps have one pixel scale and (without shear_bands and coadd) one number of bands, and for lists whose first object has no stamp in its first band; otherwise the first object decides for all.", "quantifier": "every list of objects, bands, scales, shear bands, coadd choice and deterministic fitter", "why_tests_cant": "A test compares a few lists from one image, where the scale never changes; the dependence on the first object shows only for lists that mix images.", "anchors": ["metadetect/fitting.py:fit_mbobs_list_joint", "metadetect/fitting.py:fit_mbobs_gauss", "metadetect/fitting.py:get_gauss_obj_runner"]}
{"id": "C104", "title": "The prior of a Gaussian fit suits the stamps that are fit", "statement": "fit_mbobs_gauss with its default runners never calls the fitter with anything but one flux prior for each fitted stamp and a position prior whose width is the pixel scale of the first of them, whatever bands, shear bands and coadd are chosen. In a list this holds when all stamps have one scale; with two scales it does not.", "quantifier": "every object, list, choice of bands and fitter", "why_tests_cant": "The prior is internal; a test sees only its influence on a few fits, while the claim is about every call.", "anchors": ["metadetect/fitting.py:_make_ml_prior", "metadetect/fitting.py:get_gauss_obj_runner", "metadetect/fitting.py:fit_mbobs_gauss"]}
{"id": "C105", "title": "The pixels that stand for a scarlet source are its complete model as seen through the PSF", "statement": "scarletModelToHeavy(source, blend) makes a footprint whose pixels hold, in every band, the model of the source convolved with the kernel of that band, and no pixel of the observation with light of the source is missing. This holds for sources inside of the observation with models and kernels that are not negative; a pixel where the model is negative in some bands and zero in another is left out, and a source that reaches out of the observation is cut before the convolution.", "quantifier": "every observation, kernel, PSF size, source box, model and pixel", "why_tests_cant": "Tests look at a few deblended scenes; which pixels survive growing, clipping, convolving and masking depends on every box and value.", "anchors": ["metadetect/lsst/model_subtractor.py:scarletModelToHeavy"]}
{"id": "C106", "title": "The subtracted images are the data minus the complete models of all sources", "statement": "After ModelSubtractor(mbexp, sources, model_data) is made, every pixel of the working images is the original value minus the sum of the convolved models of the sources of all blends that cover the pixel, if the footprint boxes of the catalogue hold the models; light outside of the box of the blend or outside of the footprint's box in the catalogue is not subtracted.", "quantifier": "every set of blends, sources, observations, catalogue boxes, exposures, bands and pixels", "why_tests_cant": "The statement is about the sum over all sources at every pixel; residual images in tests are looked at with a tolerance.", "anchors": ["metadetect/lsst/model_subtractor.py:ModelSubtractor._build_subtracted_image", "metadetect/lsst/model_subtractor.py:scarletModelToHeavy"]}
{"id": "C107", "title": "The order of the bands does not change the combined data", "statement": "Passing the same bands in another order gives the same detection image, noise level and detection mask, the same mean masked fraction, the same ORed masks, the same psf averages (or the same error), the same coadd of the shear bands with the same flags, and, for the lsst functions, the same coadded pixels, variances, masks, psf and masked fraction. Only the geometry of the lsst coadds is taken from one band: the wcs from the first, the jacobian from the last.", "quantifier": "all lists of bands (of one shape where the code takes the shape of the first), all their permutations, all pixel values and masks", "why_tests_cant": "Tests use one order of the bands; the claim is about every permutation of every number of bands.", "anchors": ["metadetect/detect.py:MEDSifier._set_detim", "metadetect/metadetect.py:Metadetect._get_mfrac", "metadetect/metadetect.py:Metadetect._get_ormask_and_bmask", "metadetect/metadetect.py:_get_psf_stats", "metadetect/fitting.py:make_coadd_obs", "metadetect/lsst/util.py:coadd_exposures", "metadetect/lsst/util.py:coadd_mbobs", "metadetect/lsst/metadetect.py:combine_ormasks", "metadetect/lsst/metadetect.py:get_mfrac_mbexp"]}
{"id": "C108", "title": "Multiplying all weights by one number changes no image", "statement": "Multiplying every input weight by the same positive number (dividing every variance by it) changes no combined image, mask, psf, masked fraction, flag or exception of the coadd of the shear bands, of the coadd of exposures, of the coadd of observations and of the mean masked fraction of the lsst task. The weight plane of the result is multiplied by that number and the variance plane divided by it.", "quantifier": "for every positive number and every list of bands, exposures or observations, including unusable ones", "why_tests_cant": "tests use one normalisation of the weights, a threshold on the weights that is not relative would only show up at another scale", "anchors": ["metadetect/fitting.py:make_coadd_obs", "metadetect/lsst/util.py:coadd_exposures", "metadetect/lsst/util.py:coadd_mbobs", "metadetect/lsst/metadetect.py:get_mfrac_mbexp"]}
{"id": "C109", "title": "Combined images are linear in the input images", "statement": "With weights and masks fixed, the detection image, the coadd of the shear bands, the coadd of exposures and the coadd of observations made from c times one set of images plus d times another set are c times the first result plus d times the second, in every pixel. Whether there is a result, the exceptions, the flags and all other planes do not depend on the images. So scaling the fluxes scales the coadds and the noise images are combined as the images are.", "quantifier": "for all numbers c and d and every two sets of images of equal shapes", "why_tests_cant": "linearity relates three runs of the code for arbitrary images; a test compares one result with one number", "anchors": ["metadetect/detect.py:MEDSifier._set_detim", "metadetect/fitting.py:make_coadd_obs", "metadetect/lsst/util.py:coadd_exposures", "metadetect/lsst/util.py:coadd_mbobs"]}
{"id": "C110", "title": "Exactly which inputs are refused, and with which exception", "statement": "The combination of the bands returns exactly for non-empty lists of bands with one epoch each, for masks and masked fractions of one shape and variances that are somewhere finite and positive; every other input raises, and the statement says which exception for which input: no bands, several epochs, failed psf fits (the first unusable band decides), missing or differing masks and masked fractions, observations of different sizes, exposures without wcs or psf, psf images that are not odd squares, unknown mask names. With a configuration that some run accepts, run_metadetect and run_photometry look at the masks, then at the masked fractions, and raise before they change the exposures. The mask lookup of the lsst task does not refuse positions just left of or below the image: it counts them from the other edge.", "quantifier": "for all lists of bands, masks, masked fractions, variances, observations, exposures, positions and configurations", "why_tests_cant": "tests try a few bad inputs; that no other input is refused and that the first unusable band decides are statements about all inputs", "anchors": ["metadetect/metadetect.py:Metadetect._get_mfrac", "metadetect/metadetect.py:Metadetect._get_ormask_and_bmask", "metadetect/metadetect.py:_fill_in_mask_col", "metadetect/fitting.py:fit_all_psfs", "metadetect/lsst/metadetect.py:combine_ormasks", "metadetect/lsst/metadetect.py:get_mfrac_mbexp", "metadetect/lsst/metadetect.py:add_ormask", "metadetect/lsst/metadetect.py:fit_original_psfs_mbexp", "metadetect/lsst/util.py:obs2exp", "metadetect/lsst/util.py:extract_obs", "metadetect/lsst/util.py:coadd_mbobs", "metadetect/lsst/util.py:get_bbox", "metadetect/lsst/metadetect.py:run_metadetect", "metadetect/lsst/photometry.py:run_photometry"]}
{"id": "C111", "title": "Flags of averaged objects are set for a reason, and only for one", "statement": "In the weighted average fits every bit of an object's obj_flags, psf_flags and band flux flags has a cause: a missing, unweighted or masked band among the shear bands, a fit without moments, a PSF without flux, what the moment routine reports for the averaged moments, a flux or flux variance that is not positive, or, for the object, a flagged PSF. Conversely each of these sets its bit. Bands not used for shear only affect their own flux flag.", "quantifier": "all fit results, weights, band lists, regularizations; all observations", "why_tests_cant": "A false flag silently removes good objects and a missing one keeps bad ones; tests look at a few combinations of failures.", "anchors": ["metadetect/fitting.py:_sum_bands_wavg", "metadetect/fitting.py:_combine_fit_results_wavg", "metadetect/fitting.py:_make_mom_res", "metadetect/fitting.py:fit_mbobs_wavg"]}
{"id": "C112", "title": "PSF columns average the PSFs of the bands with the fluxes of the object", "statement": "In the weighted average fits the PSF size of an object with unflagged PSF is the mean of the sizes of the PSFs of the shear bands, weighted by the averaging weight of the band times the flux of the object in that band, and the PSF shape is the ratio of the moments averaged in the same way. The flux of the PSF images themselves does not matter.", "quantifier": "all numbers of bands, weights, fluxes and PSF moments", "why_tests_cant": "The weighting is only visible with several bands with different PSFs and colours.", "anchors": ["metadetect/fitting.py:_sum_bands_wavg", "metadetect/fitting.py:_combine_fit_results_wavg"]}
{"id": "C113", "title": "The flags of a joint fit have exactly the listed causes", "statement": "For the Gaussian fit and for adaptive moments of an object over several bands: if a band has no stamp, several stamps, no positive weight or a pixel with one of the refused mask bits (or, for the Gaussian fit, a shear band does not exist), the flags consist of 'not attempted' and of the bits of every one of these problems and no other, and nothing is fit. A coadd that cannot be made adds exactly its own flag, a fit that raises exactly the failure flags. Otherwise the flags are exactly those reported by the fits of the object and of the PSFs; the flux of every shear band, also one counted from the end, has the flag of the object fit and the flux of any other band stays 'not attempted'.", "quantifier": "every list of bands and stamps, mask bits, choice of shear bands (also negative), coadding or not, and every outcome of the fits", "why_tests_cant": "Tests provoke one problem at a time; that no combination of problems hides or invents a bit is a statement about all of them.", "anchors": ["metadetect/fitting.py:fit_mbobs_gauss", "metadetect/fitting.py:fit_mbobs_admom", "metadetect/procflags.py"]}
{"id": "C114", "title": "No integer column overflows", "statement": "The flag and mask columns of all catalogues are 32 bit integers. If the mask planes of the input are 32 bit integers and the flags reported by ngmix are non-negative ones, the values computed for the mask columns (at the object and at its unsheared position, over any region and any number of bands), for every flag column of the rows of the weighted average, Gaussian and adaptive moments fitters, and for the two mask columns of the lsst tasks, fit: nothing is truncated or wraps around when they are stored, and no flag column is negative.", "quantifier": "every data set, history of calls, choice of bands, regions and every outcome of the fits", "why_tests_cant": "An overflow needs a particular combination of the highest bits; tests use a few low bits.", "anchors": ["metadetect/metadetect.py:_fill_in_mask_col", "metadetect/fitting.py:get_wavg_output_struct", "metadetect/lsst/metadetect.py:add_ormask", "metadetect/lsst/measure.py:get_output_dtype"]}
{"id": "C115", "title": "Flags of an LSST object come from its fits only", "statement": "In the table that the LSST measurement returns, an object whose stamp could not be made (stamp_flags nonzero) has every flag column of both fits equal to NO_ATTEMPT; for every other object the gauss flags are exactly the bits that the joint fit of the shear-band stamps reports (or NO_ATTEMPT with PSF_FAILURE, or with OBJ_FAILURE and PSF_FAILURE, when that fit raises), and the pgauss flags are exactly the bits of the fits of all bands, of the averaged moments and of a failed PSF. Masked pixels, weights and missing stamps never add a flag to these columns.", "quantifier": "all exposures and bands, all catalogues and listings of their child ids, all shear bands of the exposure, all objects and all fitter results", "why_tests_cant": "tests look at a few simulated objects whose fits succeed; which combinations of stamp, mask, weight and fit failures set a flag cannot be enumerated", "anchors": ["metadetect/lsst/measure.py:measure", "metadetect/lsst/mbobs_extractor.py:MBObsExtractor.get_mbobs", "metadetect/lsst/util.py:extract_obs", "metadetect/fitting.py:fit_mbobs_gauss", "metadetect/fitting.py:fit_mbobs_wavg"]}
{"id": "C116", "title": "LSST shear columns depend on the shear bands only", "statement": "For one detection catalogue, the gauss columns of an object in the table of the LSST measurement (flags, shape, size, fluxes, label of the shear bands) depend only on the images in the configured shear bands: changing image, variance, mask or PSF of any other band leaves them the same.", "quantifier": "all pairs of multi-band exposures that agree in the shear bands, all catalogues and listings, all fitters", "why_tests_cant": "a test changes one other band in one way; the claim is about every content of every other band", "anchors": ["metadetect/lsst/measure.py:measure", "metadetect/lsst/util.py:extract_shear_band_indices", "metadetect/fitting.py:fit_mbobs_gauss"]}
{"id": "C117", "title": "Single precision positions stay consistent with their stamps", "statement": "The catalogue keeps positions in single precision columns. The stored position is a nearest single precision number, off by at most 2^-25 of the power of two above it; the stored position in the stamp plus the first row of the stamp is exactly the stored position (the subtraction in double precision and its storage in single precision do not round); and the pixel of the stored position lies in the image and in the stamp.", "quantifier": "all positions in images of up to 2^23 rows or columns, all stamp sizes of at least 2", "why_tests_cant": "about 2^30 single precision numbers, each with its own rounding; a rounded difference would shift an object in its stamp by an amount no tolerance based test sees", "anchors": ["metadetect/detect.py: MEDSifier._run_sep, CatalogMEDSifier"]}
{"id": "C118", "title": "Mask lookups find the object's own pixel despite single precision", "statement": "The mask value of an object inside the image is that of the pixel that covers its position, although the position is stored in single precision before the lookup.", "quantifier": "all positions and exposure origins up to 2^23", "why_tests_cant": "the failure is confined to positions within 2^-25 of their size from the edge of a pixel", "anchors": ["metadetect/lsst/metadetect.py: add_ormask", "metadetect/lsst/measure.py: get_output_dtype", "metadetect/metadetect.py: _clip_and_round, _fill_in_mask_col"]}
{"id": "C119", "title": "Masked fractions stay fractions in floating point", "statement": "Every masked fraction (of a pixel over bands, of an object over pixels, of the image) computed in floating point from fractions and non-negative weights lies in [0, 1] after all roundings; a pixel masked in every band has exactly 1, so a fully masked image is recognized, and a pixel masked in none exactly 0; the mean over the image is in range for every order of summation.", "quantifier": "all weights, maps, precisions, numbers of bands and pixels and orders of summation", "why_tests_cant": "rounding depends on every bit of every weight; a fully masked image must be recognized for all of them", "anchors": ["metadetect/metadetect.py: _get_mfrac, _add_positions_and_psf", "metadetect/mfrac.py: measure_mfrac", "metadetect/lsst/metadetect.py: get_mfrac_mbexp, measure_weighted_mfrac"]}
{"id": "C120", "title": "A pixel masked in every band has LSST masked fraction one", "statement": "If every band's masked fraction is 1 at a pixel then so is the average over bands that the LSST pipeline computes.", "quantifier": "all weights and numbers of bands", "why_tests_cant": "depends on the rounding of the reciprocal of the total weight", "anchors": ["metadetect/lsst/metadetect.py: get_mfrac_mbexp"]}
{"id": "C121", "title": "The fits of an object depend on the pixels of its stamp only", "statement": "Two do_metadetect calls with the same configuration on images with as many bands: for every shear type and pair of band combinations, an object that both calls detect with the same record has the same columns of every fitter in both tables if, in every band, the sheared images, weights, bit masks, noise, PSF and jacobian and the segmentation map agree on the pixels of the object's stamp. Pixels outside of the stamp and other objects have no influence.", "quantifier": "all pairs of images, all configurations, types, band combinations and objects", "why_tests_cant": "a test compares a few pairs of images; that no pixel outside of the stamp is read needs an argument over all pairs", "anchors": ["metadetect/metadetect.py:do_metadetect", "metadetect/metadetect.py:Metadetect._measure", "metadetect/detect.py:CatalogMEDSifier", "metadetect/detect.py:MEDSInterface.get_cutout"]}
{"id": "C122", "title": "Masking steps compose: the result of one is valid input of the next, and apodizations commute and combine", "statement": "Applying the edge apodization or any foreground-masking method to observations with non-negative weights gives observations with non-negative weights, of the same shape, whose setting to ignore zero weights is on exactly when it was on and a positive weight is left; so the steps can be chained without an error. With the apodize method, applying two foreground catalogues one after the other gives the observations that applying them together gives, the order of a catalogue does not matter, and edge and foreground apodization can be done in either order.", "quantifier": "all shapes, observations, catalogues, radii, kernels, bits and expansion radii", "why_tests_cant": "Concerns all pairs of steps on all images; tests apply one step to one image.", "anchors": ["metadetect/masking.py:apply_apodization_corrections", "metadetect/masking.py:apply_foreground_masking_corrections"]}
{"id": "C123", "title": "LSST masking steps can be combined", "statement": "Masking edges and bright objects of exposures one after the other gives the same images, variances, masks, noise, masked fractions and or-masks in either order; masking two lists of bright objects one after the other is masking them together, and the order of a list does not matter; doing a step again changes no mask, variance, masked fraction or or-mask and images only where they are masked; what a step leaves can always be given to the next one.", "quantifier": "all exposures, noise, masked fractions and or-masks of one shape, all lists of bright objects with non-negative radii, all positions and bits", "why_tests_cant": "relates two different sequences of calls on every input; a test compares a few", "anchors": ["metadetect/lsst/masking.py: apply_apodized_edge_masks_mbexp", "metadetect/lsst/masking.py: apply_apodized_bright_masks_mbexp"]}
{"id": "C124", "title": "The LSST row of an object depends on the pixels of its stamp only", "statement": "Two LSST measurements with the same settings in the same frame: an object that is in both catalogues and under whose stamp all bands agree has the same row in both tables, whatever the other pixels, the other objects and the order of the catalogue are; only the column bmask is excepted. Whether its stamp raises is local in the same way.", "quantifier": "all pairs of multi-band exposures, catalogues, listings of the ids and objects; all fitters that depend on the observations only", "why_tests_cant": "a test compares a few pairs of exposures; that no pixel outside of the stamp is read needs an argument over all pairs", "anchors": ["metadetect/lsst/measure.py: measure, get_output", "metadetect/lsst/mbobs_extractor.py: MBObsExtractor", "metadetect/lsst/util.py: get_bbox, extract_obs"]}
{"id": "C125", "title": "The LSST measurement does not depend on where the pixel grid starts", "statement": "When the corner of the exposures, the positions of the sources, the wcs, the PSF model and the detection mask are shifted by whole pixels, the measurement gives the same table, with positions and corners shifted and every other column the same, or raises the same exception; the or-mask, masked fraction and PSF columns added afterwards are the same too.", "quantifier": "all shifts, exposures, catalogues and settings", "why_tests_cant": "relates runs on all pairs of shifted inputs; tests use one corner", "anchors": ["metadetect/lsst/measure.py: measure, get_output, get_bmasks", "metadetect/lsst/util.py: get_bbox, extract_obs, get_jacobian", "metadetect/lsst/metadetect.py: add_ormask, add_mfrac"]}
{"id": "C126", "title": "Coadds and averages over bands are accurate in floating point", "statement": "The pixels of the detection image and its noise, of the coadded observations of an object and their weight map, of the coadded exposures, of the masked fraction averaged over bands, and the averaged PSF shapes, computed in single or double precision, differ from the exact weighted averages by at most a number of unit roundoffs, linear in the number of bands, times the average of the absolute values, plus a multiple of the least positive number. Two orders of the bands, and two orders of summation, give the same up to twice that.", "quantifier": "all numbers of bands up to an eighth of 2 to the precision, all values, all weights between 2^-b and 2^b with room to underflow, all orders of the bands and of numpy's summation, all binary formats", "why_tests_cant": "floating point results depend on every rounding; tests compare a few images with a tolerance", "anchors": ["metadetect/detect.py: MEDSifier._set_detim, _get_image_vars", "metadetect/fitting.py: make_coadd_obs", "metadetect/lsst/util.py: coadd_exposures", "metadetect/metadetect.py: Metadetect._get_mfrac, _get_psf_stats", "metadetect/lsst/metadetect.py: get_mfrac_mbexp"]}
{"id": "C127", "title": "Pixels that are nan or infinite spoil only themselves", "statement": "A pixel that is nan or infinite in one band makes the detection image, the coadd that shear is measured on and the LSST masked fraction map non-finite at that pixel and changes no other pixel: everywhere else they are what the data without the bad pixels give. In the coadd of LSST exposures such a pixel does not matter at all if its variance is not positive there. A nan in a weight or variance map counts as no data: it does not enter the median that weighs the band, and the weight of the coadd is 0, never nan, there. A band in which no weight is positive leaves nothing of the detection image or the LSST coadd, and makes the coadd for shear measurement and the masked fraction refuse the data.", "quantifier": "every list of bands, every placement of nan, +infinity and -infinity in the images and of nan in the weights (and of infinities in the variances), every pixel", "why_tests_cant": "The tests never put nan or infinite pixels in; whether one spreads (through a sum, a median, 0 times infinity) depends on where they are in every band.", "anchors": ["metadetect/detect.py:MEDSifier._set_detim", "metadetect/fitting.py:make_coadd_obs", "metadetect/lsst/util.py:coadd_exposures", "metadetect/lsst/metadetect.py:get_mfrac_mbexp"]}
{"id": "C128", "title": "Rows and columns are treated alike", "statement": "Giving every input with rows and columns exchanged gives the output with rows and columns exchanged, or the same error: the detection image, its noise and mask; the catalogue of detected objects with their stamp corners and boxes; the postage stamps; masked fractions and mask columns; coadds over bands and of exposures, symmetrized weight maps; edge and bright object masking with the method apodize, in both code paths; the LSST or-mask, masked fraction map and their columns; sheared and unsheared positions, where 1p and 1m also change places; interpolated images, and when an image is given up. This is not so for bright object masks with symmetrize=True, which are combined with one of the two quarter turns only.", "quantifier": "all images of any, also non-square, shape, all catalogues, positions, jacobians, shear types and steps, masks and weights", "why_tests_cant": "Relates two runs on every input; tests use square images, for which a swapped row and column is often not seen.", "anchors": ["metadetect/detect.py: MEDSifier, CatalogMEDSifier, MEDSInterface", "metadetect/mfrac.py: measure_mfrac", "metadetect/metadetect.py: Metadetect._get_mfrac, _get_ormask_and_bmask", "metadetect/fitting.py: make_coadd_obs, symmetrize_obs_weights", "metadetect/lsst/util.py: coadd_exposures", "metadetect/masking.py", "metadetect/lsst/masking.py", "metadetect/lsst/metadetect.py: combine_ormasks, add_ormask, get_mfrac_mbexp, add_mfrac", "metadetect/shearpos.py", "metadetect/interpolate.py: interpolate_image_at_mask"]}
{"id": "C129", "title": "The viewers show what they are given, where they say", "statement": "show_mbexp draws the picture of the exposure (the first three bands without negative pixels as a colour image; with one or two bands the logarithm of their sum, cut at a tenth of the noise) in the panel it is given and in no other, with its title, and a mark exactly at the pixel of every source. show_mbexp_mosaic puts exposure i, under label i, in the i-th panel of the grid, and empties the panels left over. compare_mbexp shows the data, the model and their difference and changes no array of the caller, even if the model is the data. show_three_mbexp, show_mbexp_each_band, show_image_and_mask, show_exp and show_image show each image under its own title with the marks of its objects; wrong numbers of exposures or labels and band numbers out of range are refused. The observations of any number of bands can be shown, and so can the demonstration of stretches.", "quantifier": "all numbers of exposures, bands, sources and labels, all pixels, every grid with enough panels, all ways in which the arrays of data and model are shared", "why_tests_cant": "There are no tests of the viewers, and a swapped panel or a changed input would not raise an error.", "anchors": ["metadetect/lsst/vis.py: show_exp, show_mbexp, show_mbexp_mosaic, _extract_xy, compare_mbexp, show_three_mbexp, show_mbexp_demo, show_multi_mbobs, show_mbexp_each_band, show_image_and_mask, show_image"]}
{"id": "C130", "title": "More masking in never gives less masking out", "statement": "If pixels are given more mask bits or larger masked fractions, or if objects are added to the bright object catalogue, and everything else is the same, then: the detection image and noise do not change and every pixel that was excluded from detection still is; every bmask and ormask value in the output has at least its old bits; every masked fraction is at least its old value; after bright object masking every weight is its old value or zero, and every mask plane and masked fraction is at least what it was. Asking for a larger region around each object for the mask columns does not lose bits either. The calls raise exactly when they did before. As coded this fails in one place: when bright objects come to cover a whole image, the interpolating methods do not set the interpolation bit, so adding an object can remove that bit from pixels.", "quantifier": "Every number and size of bands and images, every pair of masks and masked fractions with the second containing the first pixel by pixel, every pair of catalogues with the first included in the second, every set of objects and positions, and both code paths", "why_tests_cant": "A test compares two masks at a time; a step that clears a bit, reads the wrong band, or divides by a weight that depends on the mask shows only for the patterns where the two differ", "anchors": ["metadetect/detect.py: MEDSifier._set_detim", "metadetect/mfrac.py: measure_mfrac", "metadetect/metadetect.py: Metadetect._get_ormask_and_bmask, _get_mfrac, _fill_in_mask_col", "metadetect/fitting.py: make_coadd_obs", "metadetect/masking.py: make_foreground_bmask, apply_foreground_masking_corrections", "metadetect/lsst/masking.py: apply_apodized_bright_masks_mbexp", "metadetect/lsst/metadetect.py: combine_ormasks, add_ormask, get_mfrac_mbexp, add_mfrac", "metadetect/lsst/util.py: coadd_exposures", "metadetect/lsst/measure.py: get_bmasks"]}
{"id": "C131", "title": "The shape of an object depends on its stamps in the shear bands only", "statement": "Two do_metadetect calls with the same configuration on images with as many bands: for every shear type and band combination, take an object that both calls detect with the same record. If the sheared images agree under its stamp in the shear bands, all columns of the object that are not listed per band (shape, size, s2n, PSF, their flags) are the same for the moments fitters, and an object that has no flags in either call is the same for the joint fitters. The flux columns of a band depend on the stamp in that band only. An object that is usable in the shear bands is measured whatever the other bands hold.", "quantifier": "all pairs of images, all configurations, types, band combinations, fitters and objects, all sets of bands in which the images agree", "why_tests_cant": "which pixels of which bands enter a column is a statement about all pairs of inputs; a test changes one band in one way", "anchors": ["metadetect/fitting.py: _sum_bands_wavg, _combine_fit_results_wavg, fit_mbobs_gauss, fit_mbobs_admom", "metadetect/metadetect.py: Metadetect._go_bands"]}
{"id": "C132", "title": "The tables of a result have the same, distinct, documented columns, and each cell shows the right quantity", "statement": "When do_metadetect returns tables, every table has at least one row; all tables have the same columns in the same order, with different names: for each configured fitter, in order, the fifteen quantities under its prefix (wmom, ksigma, pgauss, am, gauss, with _reg and two decimals when regularised), shear_bands once, and the position, mask, detection band and PSF columns; every column has one value per row, of the same type in all rows of all tables. The value in row i of a fitter's column is that fitter's measurement of the object of row i. Column names clash only if two fitters have the same prefix. Building, combining, extending and stacking the tables raises no exception of its own when all observations have the same number of bands and the prefixes differ.", "quantifier": "all configurations, images, colour arguments, band combinations, numbers of objects (also none for some types or colours) and third party results", "why_tests_cant": "the tables are glued together from many pieces, by name, by position and by stacking; a test looks at a few names in one table", "anchors": ["metadetect/fitting.py: get_wavg_output_struct, _make_combine_fit_results_wavg_dtype, fit_mbobs_list_wavg, fit_mbobs_list_joint, combine_fit_res", "metadetect/metadetect.py: Metadetect._measure, _add_positions_and_psf, _go_bands_with_color, go"]}
{"id": "C133", "title": "Values without flags are numbers", "statement": "In every row of every table do_metadetect returns, and for every configured fitter: where psf_flags is 0, psf_g and psf_T are numbers (not nan); where obj_flags is 0, s2n, g and g_cov are; where T_flags is 0, T and T_err are; where psf_flags and T_flags are 0, T_ratio is; and for each band whose band_flux_flags is 0, band_flux and band_flux_err are. flags being 0 implies that psf_flags and obj_flags are 0. For the fitters that average over bands, a row whose flags is 0 holds numbers only. This assumes of the third party fitting code that its own unflagged results are numbers.", "quantifier": "all inputs and configurations for which do_metadetect returns, all shear types, rows, fitters and bands, all third party results that are numbers where their own flags are 0", "why_tests_cant": "nan values appear for particular combinations of zero weights, failed fits and missing bands; tests sample few of them", "anchors": ["metadetect/fitting.py:fit_mbobs_wavg", "metadetect/fitting.py:_combine_fit_results_wavg", "metadetect/fitting.py:_make_mom_res", "metadetect/fitting.py:fit_mbobs_gauss", "metadetect/fitting.py:fit_mbobs_admom", "metadetect/metadetect.py:do_metadetect"]}
{"id": "C134", "title": "Values without flags are numbers in the LSST tables", "statement": "In every row of every table that run_metadetect (every shear type, with the sdss and with the scarlet deblender) or run_photometry returns: where gauss_psf_flags is 0, gauss_psf_g and gauss_psf_T are numbers (not nan); where gauss_obj_flags is 0, gauss_s2n, gauss_g and gauss_g_cov are; where gauss_T_flags or pgauss_T_flags is 0, the sizes and their errors are; where gauss_psf_flags and gauss_T_flags are 0, gauss_T_ratio is; where pgauss_obj_flags is 0, pgauss_s2n is, and with pgauss_T_flags 0 also pgauss_T_ratio; for each band whose band_flux_flags is 0, its flux and error are. A row with gauss_flags 0 has numbers in every gauss_ column but the band fluxes, a row with pgauss_flags 0 in every pgauss_ column. This assumes of the third party fitting code that its own unflagged results are numbers.", "quantifier": "all exposures, noise, masks and configurations for which the functions return, all shear types, both deblenders, all rows and bands, all third party results that are numbers where their own flags are 0", "why_tests_cant": "the nan values appear for particular stamps and failures of a fit; tests look at a few simulated fields", "anchors": ["metadetect/lsst/metadetect.py:run_metadetect", "metadetect/lsst/photometry.py:run_photometry", "metadetect/lsst/measure.py:measure", "metadetect/fitting.py:fit_mbobs_gauss", "metadetect/fitting.py:fit_mbobs_wavg"]}
{"id": "C135", "title": "Where the flags in the LSST tables come from", "statement": "In the table of every shear type that run_metadetect returns, the row of an object either has stamp_flags other than 0 and says that nothing was fit (every flag NO_ATTEMPT, every value nan), or its flag columns are exactly those of two fits: the gauss_ flags come from the joint fit of the stamps of the requested shear bands, the pgauss_ flags from the fits, with the requested fwhm, of the stamps of all bands. These stamps are cut out of the images of that shear type around the object; with the scarlet deblender they are the same stamps with the models of all other sources subtracted. No flag comes from another object, another shear type, the masks or the input images.", "quantifier": "all exposures, noise, masks and configurations for which run_metadetect returns, all shear types, both deblenders, all rows, all results of the third party fits", "why_tests_cant": "a flag taken from another band, object or shear type shows only for particular failures of particular stamps; tests have few failing fits", "anchors": ["metadetect/lsst/metadetect.py:run_metadetect", "metadetect/lsst/metadetect.py:detect_deblend_and_measure", "metadetect/lsst/measure.py:measure", "metadetect/lsst/mbobs_extractor.py:MBObsExtractor", "metadetect/fitting.py:fit_mbobs_gauss", "metadetect/fitting.py:fit_mbobs_wavg"]}
{"id": "C136", "title": "The detection runs with the settings asked for, for every shear type", "statement": "When the configuration has an entry sx, every shear type is detected with exactly its detect_thresh and its other entries (filter_kernel as an array); the user's dictionary is never changed, so the settings are the same for the first and the last shear type and for later calls, whatever the detection package does to the dictionary it is given. An sx entry without filter_kernel or detect_thresh is a KeyError before anything is detected. Without sx the detection package's own settings and threshold are used.", "quantifier": "all settings, all sequences of shear types and images, all behaviours of the detection package including ones that change their settings in place", "why_tests_cant": "that a pop or an in-place change leaks into the next shear type depends on the history of calls; tests use one configuration that is complete and look at counts of objects", "anchors": ["metadetect/detect.py:MEDSifier._set_sx_config", "metadetect/detect.py:MEDSifier._run_sep", "metadetect/metadetect.py:Metadetect._do_detect"]}
{"id": "C137", "title": "Stamps are the caller's own arrays", "statement": "Every stamp returned by the MEDS interface, of any kind, is a new array: after any history of requests and of changes made in place to stamps given out earlier, the images, the segmentation map and the PSF image are unchanged and the next stamp is the one that a first request would have returned. The PSF stamp is the PSF image, the same for every object.", "quantifier": "all images, catalogues, histories of requests (including failing ones) and in-place changes, all objects and stamp types", "why_tests_cant": "aliasing shows only after particular sequences of in-place changes", "anchors": ["metadetect/detect.py:MEDSInterface.get_cutout", "metadetect/detect.py:MEDSInterface.get_psf", "metadetect/detect.py:MEDSInterface._get_type_image"]}
{"id": "C138", "title": "Moving the sky by whole pixels moves the objects and changes no fit", "statement": "If an object is found in two calls of do_metadetect, in the second one some whole number of rows and columns further on, and its stamps lie within the images of both calls and hold the same pixels, then all its fitted columns (for every fitter, shear type and band combination) are the same in both tables and its sheared position moves by exactly these rows and columns. The images of the two calls may have different sizes, and everything outside of the stamps, all other objects included, may differ.", "quantifier": "all pairs of inputs, image sizes and displacements, all objects, shear types, band combinations and fitters, all third party results", "why_tests_cant": "tests compare a few simulated scenes at one place in one image", "anchors": ["metadetect/metadetect.py:do_metadetect", "metadetect/metadetect.py:Metadetect._do_detect", "metadetect/detect.py:MEDSifier", "metadetect/detect.py:CatalogMEDSifier", "metadetect/detect.py:MEDSInterface.get_cutout"]}
{"id": "C139", "title": "do_metadetect returns a result on valid input, whatever the pixels", "statement": "For a valid configuration and observations of one shape, with one to six different bands in every combination and fitters that have different column prefixes, do_metadetect returns (tables or None) and raises no exception, whatever the pixels, masks and detections are, as long as third party code (sep, ngmix, MEDS reader, colour function) returns.", "quantifier": "all observations, pixel values, masks, catalogues of detections within the image, configurations, band combinations, fitters and colour functions", "why_tests_cant": "an exception that needs one object at one place of one image size is not met by a few simulated scenes", "anchors": ["metadetect/metadetect.py:do_metadetect", "metadetect/metadetect.py:Metadetect._measure", "metadetect/mfrac.py:measure_mfrac", "metadetect/detect.py:MEDSInterface.get_cutout", "metadetect/shearpos.py:unshear_positions"]}
{"id": "C140", "title": "One object never stops the LSST measurement", "statement": "The measurement of a catalogue of detected sources returns whatever the pixels, variances and positions are: None when no source is without children, otherwise a table with one row for each of them. Objects at the edge, objects without usable variance in some band and failed fits give rows with flags and never an exception.", "quantifier": "all exposures with wcs and PSF, catalogues with distinct ids and peaks on the detection mask, stamp sizes, shear bands, orders of the id set, pixels and variances, results of the fits", "why_tests_cant": "an exception for one object loses all objects of the image; tests see a few objects in a few images", "anchors": ["metadetect/lsst/measure.py:measure", "metadetect/lsst/mbobs_extractor.py:MBObsExtractor", "metadetect/lsst/util.py:extract_obs", "metadetect/fitting.py:fit_mbobs_gauss", "metadetect/fitting.py:fit_mbobs_wavg"]}
{"id": "C141", "title": "An LSST run returns for every image", "statement": "Given a valid configuration, exposures with wcs, PSF and usable variances, masks and masked fractions of their size, and third party routines that return, run_metadetect returns tables: no pixel values, no masks, no objects at the edge or on top of each other and no failed fit make it raise.", "quantifier": "all configurations, numbers of bands up to six, image sizes, pixels, variances, masks, catalogues, positions, results of fits, sky subtraction on or off", "why_tests_cant": "an exception loses every object of the coadd cell; it may need one object in a place that no test image has", "anchors": ["metadetect/lsst/metadetect.py:run_metadetect", "metadetect/lsst/metadetect.py:MetadetectTask.run", "metadetect/lsst/metadetect.py:add_ormask", "metadetect/lsst/metacal_exposures.py:get_metacal_mbexps_fixnoise", "metadetect/lsst/measure.py:measure"]}
{"id": "C142", "title": "LSST photometry returns for every image", "statement": "Given a valid configuration, exposures with wcs, PSF and usable variances, masks and masked fractions of their size, and third party routines that return, run_photometry returns a table or None: no pixel values, no masks, no objects at the edge or on top of each other and no failed fit make it raise.", "quantifier": "all configurations, numbers of bands up to six, image sizes, pixels, variances, masks, catalogues, positions, results of fits, sky subtraction on or off", "why_tests_cant": "an exception loses every object of the coadd cell; it may need one object in a place that no test image has", "anchors": ["metadetect/lsst/photometry.py:run_photometry", "metadetect/lsst/metadetect.py:add_ormask", "metadetect/lsst/measure.py:measure", "metadetect/lsst/configs.py:get_config"]}
{"id": "C143", "title": "Measurement on scarlet models returns for every image", "statement": "With the scarlet deblender, model data for two or more bands and third party routines that return, the measurement returns a row for each deblended source and the whole run returns tables: no pixel or model values, no overlaps, no objects at the edge and no failed fit make it raise, and the caller's pixels are what they were.", "quantifier": "all numbers of bands and models, image sizes, pixels, model values, pixel arithmetic, footprints within the exposure, catalogues, positions, results of fits", "why_tests_cant": "an exception loses every object of the coadd cell; models are added and subtracted around each measurement, and one failure may come from any source", "anchors": ["metadetect/lsst/measure.py:measure", "metadetect/lsst/model_subtractor.py:ModelSubtractor", "metadetect/lsst/metadetect.py:run_metadetect", "metadetect/lsst/metadetect.py:add_ormask"]}
