{
 "claims": [
  {
   "property": "C01",
   "status": "proved",
   "theorems": [
    "C01_flags_decode",
    "C01_flags_unique"
   ],
   "note": "any list of flags over any ngmix value below bit 19"
  },
  {
   "property": "C02",
   "status": "proved",
   "theorems": [
    "C02_name_map_two_way",
    "C02_name_map_keeps_ngmix",
    "C02_description_exact"
   ],
   "note": "get_flags_str is third party and modelled from its documentation"
  },
  {
   "property": "C03",
   "status": "proved",
   "theorems": [
    "C03_namer_injective",
    "C03_namer_plain",
    "C03_namer_distinct_kinds"
   ],
   "note": "all prefixes, suffixes and names"
  },
  {
   "property": "C04",
   "status": "proved",
   "theorems": [
    "C04_unshear_shear",
    "C04_shear_unshear",
    "C04_known_types_return"
   ],
   "note": "real arithmetic; wcs is an affine map with invertible jacobian"
  },
  {
   "property": "C05",
   "status": "proved",
   "theorems": [
    "C05_unsheared_types_identity",
    "C05_unknown_type_raises",
    "C05_center_fixed",
    "C05_center_only_fixed",
    "C05_step_too_large"
   ],
   "note": ""
  },
  {
   "property": "C06",
   "status": "proved",
   "theorems": [
    "C06_opposite_is_inverse",
    "C06_area_preserved",
    "C06_shear_direction",
    "C06_observation"
   ],
   "note": ""
  },
  {
   "property": "C07",
   "status": "proved",
   "theorems": [
    "C07_box_size_smallest",
    "C07_box_size_total",
    "C07_bad_box_type"
   ],
   "note": "for 0 < min_box_size <= max_box_size"
  },
  {
   "property": "C08",
   "status": "proved",
   "theorems": [
    "C08_stamp_pixels",
    "C08_start_beyond_image_raises"
   ],
   "note": "all starts that overlap or touch the image; starts beyond it raise"
  },
  {
   "property": "C09",
   "status": "proved",
   "theorems": [
    "C09_stamp_anchored",
    "C09_catalog_stamp",
    "C09_catalog_numbers",
    "C09_detected"
   ],
   "note": ""
  },
  {
   "property": "C10",
   "status": "proved",
   "theorems": [
    "C10_edge_bit"
   ],
   "note": ""
  },
  {
   "property": "C11",
   "status": "partial",
   "theorems": [
    "C11_low_edge_centred_refuted",
    "C11_centred_partial"
   ],
   "note": "REFUTED as stated: near a low edge the start is clipped at 0 and the object is off centre; exact condition for centring proved"
  },
  {
   "property": "C12",
   "status": "proved",
   "theorems": [
    "C12_detection_image",
    "C12_convex",
    "C12_weight_scale_invariant",
    "C12_shape",
    "C12_unusable_band"
   ],
   "note": "exact rationals; detnoise given as 1/detnoise^2"
  },
  {
   "property": "C13",
   "status": "proved",
   "theorems": [
    "C13_range",
    "C13_monotone",
    "C13_strict",
    "C13_one_iff",
    "C13_ends"
   ],
   "note": "real arithmetic"
  },
  {
   "property": "C14",
   "status": "proved",
   "theorems": [
    "C14_edge_mask",
    "C14_frame",
    "C14_symmetric",
    "C14_range"
   ],
   "note": "any image shape, any positive scale"
  },
  {
   "property": "C15",
   "status": "proved",
   "theorems": [
    "C15_edge_planes",
    "C15_no_raise"
   ],
   "note": "all observations have the shape of the first"
  },
  {
   "property": "C16",
   "status": "proved",
   "theorems": [
    "C16_union_of_discs"
   ],
   "note": "for non-negative radii"
  },
  {
   "property": "C17",
   "status": "proved",
   "theorems": [
    "C17_square_only",
    "C17_not_square_raises",
    "C17_or_with_rotation",
    "C16_union_of_discs"
   ],
   "note": ""
  },
  {
   "property": "C18",
   "status": "proved",
   "theorems": [
    "C18_value",
    "C18_agrees_with_mask",
    "C18_order_independent",
    "C18_more_objects_lower"
   ],
   "note": "for non-negative radii"
  },
  {
   "property": "C19",
   "status": "proved",
   "theorems": [
    "C19_apodize",
    "C19_interp",
    "C19_no_raise",
    "C19_unknown_method"
   ],
   "note": "interpolator, median and generator are oracles; C19_interp needs a non-zero mask bit"
  },
  {
   "property": "C20",
   "status": "proved",
   "theorems": [
    "C20_expansion_monotone",
    "C20_masked_is_expanded",
    "C20_recorded",
    "C19_apodize",
    "C19_interp"
   ],
   "note": ""
  },
  {
   "property": "C21",
   "status": "proved",
   "theorems": [
    "C21_search_exact",
    "C21_points",
    "C21_index_roundtrip"
   ],
   "note": "the grouping window and index arithmetic as written, any image size"
  },
  {
   "property": "C22",
   "status": "proved",
   "theorems": [
    "C22_interpolation",
    "C22_none_iff",
    "C22_noise_needs_rng_and_weight",
    "C22_no_bad_pixels_starves"
   ],
   "note": "Clough-Tocher and the generator are oracles"
  },
  {
   "property": "C23",
   "status": "proved",
   "theorems": [
    "C23_isolated_filled",
    "C23_never_starved",
    "C23_zero_window_starves"
   ],
   "note": ""
  },
  {
   "property": "C24",
   "status": "proved",
   "theorems": [
    "C24_weighted_mean",
    "C24_between",
    "C24_unit_interval",
    "C24_scale_invariant",
    "C24_no_planes",
    "C24_one_epoch"
   ],
   "note": "exact rationals"
  },
  {
   "property": "C25",
   "status": "proved",
   "theorems": [
    "C25_combined_masks",
    "C25_window_or",
    "C25_single_pixel",
    "C25_total",
    "C25_rounding"
   ],
   "note": "integer region sizes; nan positions not modelled"
  },
  {
   "property": "C26",
   "status": "proved",
   "theorems": [
    "C26_weighted_means",
    "C26_global_flag",
    "C26_fits_succeed",
    "C26_fit_fails",
    "C26_fits_reported",
    "C26_missing_keys"
   ],
   "note": "a result without the needed keys raises KeyError"
  },
  {
   "property": "C27",
   "status": "proved",
   "theorems": [
    "C27_none_iff",
    "C27_gives_up",
    "C27_types",
    "C27_no_result"
   ],
   "note": "go() on a new object or after any history without exceptions; metacal returns a dictionary with the requested types"
  },
  {
   "property": "C28",
   "status": "proved",
   "theorems": [
    "C28_blocks",
    "C28_colour_blocks",
    "C28_labels"
   ],
   "note": "detector, stamps and fitters are deterministic functions"
  },
  {
   "property": "C29",
   "status": "partial",
   "theorems": [
    "C29_all_run_partial",
    "C29_missing_refuted"
   ],
   "note": "REFUTED for lists of different lengths: the construction accepts them and the surplus combinations are silently dropped. Proved for lists of equal length."
  },
  {
   "property": "C30",
   "status": "proved",
   "theorems": [
    "C30_transparent",
    "C30_order_shared",
    "C30_at_most_once",
    "C30_main_shared",
    "C30_go_transparent"
   ],
   "note": "histories of requests and go() calls without exceptions; equality up to the representation of rationals"
  },
  {
   "property": "C31",
   "status": "partial",
   "theorems": [
    "C31_complete_data_partial",
    "C31_failure_refuted",
    "C31_go_refuted"
   ],
   "note": "REFUTED: after an exception in metacal the next request returns an entry without metacal results, and a second go() can succeed where the first one raised; proved part: data returned complete is always the data of the uncached computation"
  },
  {
   "property": "C32",
   "status": "proved",
   "theorems": [
    "C32_same_tables"
   ],
   "note": "stamps must not depend on the segmentation map (the colour path never passes it) and the first fitter must give fluxes for what it can fit"
  },
  {
   "property": "C33",
   "status": "partial",
   "theorems": [
    "C33_one_row_partial",
    "C33_first_fitter",
    "C33_dropped_refuted"
   ],
   "note": "REFUTED when the PSF step of metacal fails for a colour: its detections are missing. Proved when it fails for no colour."
  },
  {
   "property": "C34",
   "status": "partial",
   "theorems": [
    "C34_accepts_exactly",
    "C34_complete_fitters",
    "C34_errors",
    "C34_band_combinations",
    "C34_empty_fitters_refuted",
    "C34_has_fitter_partial"
   ],
   "note": "Proved: construction succeeds exactly on the usable configurations, every accepted fitter configuration has a complete fitter with its aperture, and the exceptions are characterised (a joint model with fwhm_reg is an AttributeError). REFUTED part: an empty fitters list is accepted and fails later. Entries read later by detection (meds, sx) are not modelled here."
  },
  {
   "property": "C35",
   "status": "partial",
   "theorems": [
    "C35_clean_flag_partial",
    "C35_every_band",
    "C35_clean_combination",
    "C35_inconsistent_lists",
    "C35_fit_success_refuted"
   ],
   "note": "REFUTED in the part \"its object and PSF fits succeeded\": per band fit flags are only logged. Proved: data, moments, positive weights, no band flags."
  },
  {
   "property": "C36",
   "status": "proved",
   "theorems": [
    "C36_psf_failure_propagates"
   ],
   "note": ""
  },
  {
   "property": "C37",
   "status": "proved",
   "theorems": [
    "C37_weighted_means",
    "C37_scale_weights",
    "C37_permute_bands",
    "C37_other_bands",
    "C37_one_band"
   ],
   "note": "make_mom_result of ngmix is an argument, assumed to be a function of the values"
  },
  {
   "property": "C38",
   "status": "proved",
   "theorems": [
    "C38_star_size_ratio",
    "C38_star_shape"
   ],
   "note": "make_mom_result is assumed to return T = M4/M5 when it sets no flag"
  },
  {
   "property": "C39",
   "status": "partial",
   "theorems": [
    "C39_missing_shear_band_refuted",
    "C39_no_shear_band_partial",
    "C39_gauss_missing_band",
    "C39_admom_missing_band_partial",
    "C39_admom_one_band_refuted",
    "C39_ignored"
   ],
   "note": "REFUTED for the weighted average fitter and for adaptive moments with one band; proved for the Gaussian fitter, for adaptive moments with a band count other than one, and for the weighted average when none of the shear bands exists"
  },
  {
   "property": "C40",
   "status": "partial",
   "theorems": [
    "C40_label_refuted",
    "C40_truncated_refuted",
    "C40_label_partial"
   ],
   "note": "REFUTED in general (bands 1,2 and 12; a label is cut after six characters); proved for band numbers 0 to 9"
  },
  {
   "property": "C41",
   "status": "proved",
   "theorems": [
    "C41_flux_and_size_unchanged",
    "C41_zero_is_plain",
    "C41_regularized_shape",
    "C41_regularized_moments",
    "C41_flags"
   ],
   "note": ""
  },
  {
   "property": "C42",
   "status": "proved",
   "theorems": [
    "C42_coadd",
    "C42_convex",
    "C42_single_band"
   ],
   "note": "exact rationals; non-negative weights for the weight plane; meta not modelled"
  },
  {
   "property": "C43",
   "status": "partial",
   "theorems": [
    "C43_outcomes",
    "C43_missing_band",
    "C43_missing_single",
    "C43_one_band_unchecked_refuted"
   ],
   "note": "exact outcome characterisation proved; REFUTED only for the last sentence when there is one input band: later shear band indices are not checked"
  },
  {
   "property": "C44",
   "status": "proved",
   "theorems": [
    "C44_gauss_clean",
    "C44_gauss_failed",
    "C44_gauss_flux",
    "C44_admom_clean",
    "C44_admom_failed",
    "C44_admom_no_flux"
   ],
   "note": "ngmix bootstrap and the adaptive moments runner are arguments, any outcome is allowed"
  },
  {
   "property": "C45",
   "status": "proved",
   "theorems": [
    "C45_positive_orbit",
    "C45_zero_orbit",
    "C45_symmetric",
    "C45_idempotent",
    "C45_total",
    "C45_not_square_raises",
    "C45_negative_kept_refuted"
   ],
   "note": "an isolated negative weight is kept (side theorem)"
  },
  {
   "property": "C46",
   "status": "proved",
   "theorems": [
    "C46_columns",
    "C46_nothing",
    "C46_lengths_differ",
    "C46_disagreement",
    "C46_repeated_column",
    "C46_succeeds"
   ],
   "note": ""
  },
  {
   "property": "C47",
   "status": "proved",
   "theorems": [
    "C47_wavg_rows",
    "C47_joint_rows",
    "C47_joint_unknown_fitter"
   ],
   "note": ""
  },
  {
   "property": "C48",
   "status": "proved",
   "theorems": [
    "C48_mfrac",
    "C48_mfrac_all_flagged"
   ],
   "note": "Gaussian aperture abstracted as positive weights"
  },
  {
   "property": "C49",
   "status": "proved",
   "theorems": [
    "C49_user_or_default",
    "C49_accepted",
    "C49_unknown_raises",
    "C49_unmodified",
    "C49_fresh"
   ],
   "note": "dictionaries are heap objects, so aliasing and mutation are observable; values that are not sub-dictionaries are shared with the user's dictionary by design"
  },
  {
   "property": "C50",
   "status": "partial",
   "theorems": [
    "C50_effect_partial",
    "C50_accepted_partial",
    "C50_stamp_size_refuted",
    "C50_stamp_size_ignored"
   ],
   "note": "REFUTED for the key stamp_size: its value is accepted and dropped, and it is accepted even when no such field exists. Everything else is proved for every override dictionary without that key. Value validation by pex_config is not modelled"
  },
  {
   "property": "C51",
   "status": "partial",
   "theorems": [
    "C51_exact_partial",
    "C51_missing_raises",
    "C51_none_all",
    "C51_order_refuted",
    "C51_data_order"
   ],
   "note": "REFUTED: the order is that of the data, not of the request. Exactness as a set, all bands without a request, and the error are proved"
  },
  {
   "property": "C52",
   "status": "proved",
   "theorems": [
    "C52_unclipped",
    "C52_clipped"
   ],
   "note": "boxes are inclusive pixel boxes as in lsst.geom.Box2I; stamp sizes are non-negative"
  },
  {
   "property": "C53",
   "status": "partial",
   "theorems": [
    "C53_odd_partial",
    "C53_even_raises",
    "C53_even_square_refuted",
    "C53_square_unchanged"
   ],
   "note": "REFUTED for even square images, which are returned unchanged and so stay even. Proved for all odd dimensions"
  },
  {
   "property": "C54",
   "status": "partial",
   "theorems": [
    "C54_roundtrip_partial",
    "C54_reverse",
    "C54_planes",
    "C54_masks_noise_refuted",
    "C54_new_exposure_raises"
   ],
   "note": "Proved: into an existing exposure with a wcs, same mask plane named in both directions: image, positive weights, zero weights, that mask plane and the psf come back; and exposure to observation and back; where each plane comes from. REFUTED: with the default arguments the bmask comes back as the ormask, the noise is lost, and a newly made exposure has no wcs and cannot be converted back."
  },
  {
   "property": "C55",
   "status": "partial",
   "theorems": [
    "C55_pixel_partial",
    "C55_all_good",
    "C55_masks_variance",
    "C55_variance_constant_partial",
    "C55_psf",
    "C55_bad_band_refuted",
    "C55_variance_refuted",
    "C55_nan_refuted",
    "C55_nan",
    "C55_none_iff",
    "C55_infinite_variance_refuted",
    "C55_psf_position_refuted"
   ],
   "note": "Proved: weighted mean where all bands are good, exact formula elsewhere, OR of the masks, variance formula, propagated variance for constant variances, normalised weighted psf. REFUTED: pixels bad in one band are divided by the weight of all bands; the variance is not the propagated one when variances vary; a band without positive variance gives NaN (proved to happen for every such band); a pixel of infinite variance counts with the full weight of its band; psf evaluated without the corner of the box."
  },
  {
   "property": "C56",
   "status": "partial",
   "theorems": [
    "C56_ormask_column",
    "C56_combined_size",
    "C56_outside_refuted"
   ],
   "note": "Proved for objects whose position lies on the image. REFUTED outside it: a centroid with a negative pixel reads the mask on the opposite side of the image. The mask of the detection image (bmask) is in C61."
  },
  {
   "property": "C57",
   "status": "partial",
   "theorems": [
    "C57_band_mean",
    "C57_wrong_place_refuted",
    "C57_transposed",
    "C57_diagonal_partial",
    "C57_range"
   ],
   "note": "REFUTED: the slice of the map uses x for rows, so an object's masked fraction is that of the transposed position. Proved: what is measured instead, that it is right on the diagonal of a square map, the range, and the band mean."
  },
  {
   "property": "C58",
   "status": "partial",
   "theorems": [
    "C58_failure_raises",
    "C58_never_flagged",
    "C58_success_partial",
    "C58_refuted"
   ],
   "note": "REFUTED: every foreseen PSF failure raises AssertionError or UnboundLocalError from the run. Proved: successful fits give the weighted means over the shear bands; no table is ever flagged."
  },
  {
   "property": "C59",
   "status": "partial",
   "theorems": [
    "C59_restored_partial",
    "C59_one_source_partial",
    "C59_no_source_partial",
    "C59_nested_partial",
    "C59_full_model_partial",
    "C59_float_refuted",
    "C59_band_mismatch_refuted"
   ],
   "note": "Proved for every program (nested and repeated add_source blocks, exceptions anywhere) for exact pixel arithmetic and bands that have models. REFUTED for the 32 bit floats of the exposures: with two overlapping sources neither the shown nor the restored image is exact. Also REFUTED when a band has no model: the KeyError comes before the try statement and leaves earlier bands changed."
  },
  {
   "property": "C60",
   "status": "partial",
   "theorems": [
    "C60_restored_partial",
    "C60_noise_again",
    "C60_blocks",
    "C60_start",
    "C60_unknown_id",
    "C60_shown",
    "C60_constructor_refuted",
    "C60_children_refuted",
    "C60_nested_refuted"
   ],
   "note": "Noise after every block: proved for every program. Restoration at the end: proved for every program if the construction succeeds and parents cover the children. REFUTED otherwise: a failure while making a later band's replacer leaves earlier bands as noise; a catalogue of children only is never restored. NoiseReplacer itself is modelled after its documentation, without mask planes."
  },
  {
   "property": "C61",
   "status": "partial",
   "theorems": [
    "C61_rows_partial",
    "C61_none",
    "C61_bmask_position",
    "C61_bmask_partial",
    "C61_bmask_refuted"
   ],
   "note": "One row per source without children with position and fits of the same source: proved. REFUTED for the mask value: row n gets the value of the n-th source of the whole catalogue."
  },
  {
   "property": "C62",
   "status": "partial",
   "theorems": [
    "C62_no_coadd_raises",
    "C62_refuted",
    "C62_nothing_detected_partial",
    "C62_detection_alone_partial"
   ],
   "note": "REFUTED: without a coadd the detection returns two values and its caller unpacks three (ValueError). Proved: nothing detected gives the empty result."
  },
  {
   "property": "C63",
   "status": "partial",
   "theorems": [
    "C63_shear",
    "C63_mbexps_partial",
    "C63_exps_partial",
    "C63_shape",
    "C63_noise_opposite",
    "C63_succeeds",
    "C63_errors",
    "C63_missing_band_refuted",
    "C63_repeated_refuted"
   ],
   "note": "REFUTED when the noise has fewer bands than the data (the remaining bands silently keep their noise and variance) and when a type is repeated (single exposure function adds the noise twice). Proved otherwise, for any image operations, which are arguments."
  },
  {
   "property": "C64",
   "status": "partial",
   "theorems": [
    "C64_accumulates_partial",
    "C64_succeeds",
    "C64_niter",
    "C64_failed",
    "C64_raises",
    "C64_bands",
    "C64_one_shot",
    "C64_failed_level_refuted",
    "C64_reestimate_refuted"
   ],
   "note": "REFUTED for runs that return no result (a stack or task error): the recorded level is then only that of the last background; and when the detection re-estimates the background. Proved for runs that return a result without a re-estimate. The stack's tasks are arguments."
  },
  {
   "property": "C65",
   "status": "partial",
   "theorems": [
    "C65_metadetect_partial",
    "C65_subtract_sky",
    "C65_task",
    "C65_task_no_threshold",
    "C65_iterate",
    "C65_iterate_refused",
    "C65_photometry_partial",
    "C65_sky_task",
    "C65_sky_task_no_threshold",
    "C65_settings",
    "C65_truth",
    "C65_zero_refuted",
    "C65_other_options_refuted",
    "C65_dictionary_refuted",
    "C65_sky_dictionary_refuted"
   ],
   "note": "Proved: a non-zero threshold of the user is the one used for detection and sky subtraction by run_metadetect, run_photometry, the detection task, the iterated sky subtraction and subtract_sky_mbexp; all other detection settings of run_metadetect are fixed. REFUTED: a threshold of zero becomes 5; other detection options are accepted and ignored by run_metadetect; a threshold in the dictionary argument loses to the default of the thresh argument; the dictionary of the caller is changed."
  },
  {
   "property": "C66",
   "status": "proved",
   "theorems": [
    "C66_edge",
    "C66_edge_where",
    "C66_bright",
    "C66_bright_where",
    "C66_errors"
   ],
   "note": "Pixel values are real numbers; the planes of all bands have the shape of the first band's image. The state after an exception is not modelled."
  },
  {
   "property": "C67",
   "status": "partial",
   "theorems": [
    "C67_config_unchanged_refuted",
    "C67_config_unchanged_partial"
   ],
   "note": "REFUTED: an admom/am/gauss configuration without an aperture is filled in inside the caller's dictionary. Proved for configurations in which every fitter has an aperture."
  },
  {
   "property": "C68",
   "status": "proved",
   "theorems": [
    "C68_go_again"
   ],
   "note": "deterministic components; with a random number generator see C94 and C98"
  },
  {
   "property": "C69",
   "status": "partial",
   "theorems": [
    "C69_weight_partial",
    "C69_refused_iff",
    "C69_planes",
    "C69_no_data_refuted"
   ],
   "note": "Proved: constant weight 1/median positive variance, refused exactly when there is none, pixels, jacobian and psf from the right place. REFUTED: pixels without data get that weight too."
  },
  {
   "property": "C70",
   "status": "proved",
   "theorems": [
    "C70_area_and_position",
    "C70_integer_center"
   ],
   "note": ""
  },
  {
   "property": "C71",
   "status": "partial",
   "theorems": [
    "C71_masks_kept",
    "C71_shared_refuted"
   ],
   "note": "Proved when the exposures of all the bands are distinct objects. REFUTED when bands share one exposure: the second gets a zero mask."
  },
  {
   "property": "C72",
   "status": "partial",
   "theorems": [
    "C72_sum_partial",
    "C72_psf",
    "C72_zero_weight_refuted"
   ],
   "note": "Proved: the exact sum, weights of bands positive, weight maps add up, normalised weighted psf. REFUTED: pixels with zero weight contribute to the image."
  },
  {
   "property": "C73",
   "status": "partial",
   "theorems": [
    "C73_metadetect",
    "C73_photometry_sdss",
    "C73_photometry_refuted"
   ],
   "note": "Proved for run_metadetect. REFUTED for run_photometry, which accepts the option and always uses the SDSS deblender."
  },
  {
   "property": "C74",
   "status": "proved",
   "theorems": [
    "C74_tables",
    "C74_mfrac"
   ],
   "note": "Every run that returns; mask bits for objects on the image; the masked fraction is the one C57 describes."
  },
  {
   "property": "C75",
   "status": "partial",
   "theorems": [
    "C75_empty_masks",
    "C75_no_ormasks",
    "C75_no_mfrac_refuted"
   ],
   "note": "Masks are optional. REFUTED for the masked fractions: the default None always raises TypeError."
  },
  {
   "property": "C76",
   "status": "proved",
   "theorems": [
    "C76_stamp_flags"
   ],
   "note": "For the SDSS deblender's extractor; every variance map, stamp size and position."
  },
  {
   "property": "C77",
   "status": "partial",
   "theorems": [
    "C77_positions_partial",
    "C77_sky_refuted"
   ],
   "note": "REFUTED for the sky position: it stays NaN when the centroid is replaced by the peak."
  },
  {
   "property": "C78",
   "status": "proved",
   "theorems": [
    "C78_columns",
    "C78_bmask_bits"
   ],
   "note": "Column names as literal lists in Lmeas_spec."
  },
  {
   "property": "C79",
   "status": "partial",
   "theorems": [
    "C79_get_mbobs",
    "C79_other_id",
    "C79_get_stamp_refuted"
   ],
   "note": "get_mbobs proved. REFUTED: get_stamp always raises AttributeError."
  },
  {
   "property": "C80",
   "status": "partial",
   "theorems": [
    "C80_stamp",
    "C80_errors",
    "C80_no_size_refuted",
    "C80_model_size_refuted"
   ],
   "note": "Proved with a stamp size. REFUTED without one: always TypeError, because the footprint is unpacked as a pair. The stamp size is ignored for type 'model'."
  },
  {
   "property": "C81",
   "status": "partial",
   "theorems": [
    "C81_children",
    "C81_single_band_refuted"
   ],
   "note": "Proved for two or more bands. REFUTED for one band: always TypeError as soon as one source was deblended."
  },
  {
   "property": "C82",
   "status": "proved",
   "theorems": [
    "C82_median",
    "C82_poisson"
   ],
   "note": "The random draws are a parameter."
  },
  {
   "property": "C83",
   "status": "proved",
   "theorems": [
    "C83_band_problem",
    "C83_band_fluxes",
    "C83_size_ratio",
    "C83_zero_norm",
    "C83_am_one_band"
   ],
   "note": "moment fits are oracles"
  },
  {
   "property": "C84",
   "status": "proved",
   "theorems": [
    "C84_columns",
    "C84_colour_columns"
   ],
   "note": "images with at least one pixel; go() on a new object or after any history without exceptions"
  },
  {
   "property": "C85",
   "status": "partial",
   "theorems": [
    "C85_rows_partial",
    "C85_bmask_position",
    "C85_input_kept",
    "C85_none",
    "C85_copy",
    "C85_single_band_refuted"
   ],
   "note": "Proved for pixel arithmetic without rounding; with 32 bit floats it fails where models overlap (C59_float_refuted). REFUTED for a single band: the heavy footprint cannot be indexed by band and measure raises."
  },
  {
   "property": "C86",
   "status": "partial",
   "theorems": [
    "C86_table_partial",
    "C86_none",
    "C86_input",
    "C86_unknown_option",
    "C86_missing_band",
    "C86_psf_failure_raises",
    "C86_no_mfrac_raises",
    "C86_one_band_refuted",
    "C86_failed_changes_refuted"
   ],
   "note": "Proved for the table; the columns bmask (C61) and mfrac (C57) are not those of the object, the theorem says exactly what they hold instead. REFUTED for the input: with one band that is an ExposureF the detection changes the mask of the caller's exposure, and a call that fails on a missing shear band has already subtracted the sky. Without mfrac_mbexp, the documented default, every call raises; a failing psf fit raises too."
  },
  {
   "property": "C87",
   "status": "partial",
   "theorems": [
    "C87_tables_partial",
    "C87_input",
    "C87_unknown_option",
    "C87_unknown_type",
    "C87_missing_band",
    "C87_psf_failure_raises",
    "C87_no_mfrac_raises",
    "C87_stamp_size_refuted",
    "C87_failed_changes_refuted"
   ],
   "note": "Proved: settings, sky, metacal images, detection, rows, or-mask and psf columns from end to end, for both deblenders. The columns bmask (C61) and mfrac (C57) are not those of the object; the theorem says what they hold instead. REFUTED: a stamp size in the configuration has no effect; a failing call can leave the sky subtracted."
  },
  {
   "property": "C88",
   "status": "proved",
   "theorems": [
    "C88_rows",
    "C88_colour_rows",
    "C88_none",
    "C88_rejects",
    "C88_colour_same"
   ],
   "note": "End to end: constructor, driver, detection, stamps and fits of the other areas put together; source extractor, metacal, MEDS reader and fitters are functions with the stated assumptions metacal_ok, sep_ok, reader_weight. All images of a run have one shape."
  },
  {
   "property": "C89",
   "status": "partial",
   "theorems": [
    "C89_clean",
    "C89_centred_refuted"
   ],
   "note": "Proved for the stamp that is used, in every band. REFUTED: that this stamp is centred on the object. Near the low edges the stamp is moved into the image instead of being filled, so the object is off the middle of its stamp, with the pixels beyond the edge missing, and nothing is flagged."
  },
  {
   "property": "C90",
   "status": "proved",
   "theorems": [
    "C90_stable",
    "C90_bits",
    "C90_lists",
    "C90_bright",
    "C90_edge"
   ],
   "note": "The table of planes is modelled after the documentation of lsst.afw.image.Mask (first unused of 32 bits). Real arithmetic for the circles (standard library axioms of the reals)."
  },
  {
   "property": "C91",
   "status": "proved",
   "theorems": [
    "C91_stamp",
    "C91_edge",
    "C91_extractor",
    "C91_measured"
   ],
   "note": "for all aligned exposures; get_stamp of the extractor raises AttributeError (C79)"
  },
  {
   "property": "C92",
   "status": "proved",
   "theorems": [
    "C92_settings"
   ],
   "note": "over a store of dictionaries and all histories of constructions; what sxdes does with the settings is outside of the model"
  },
  {
   "property": "C93",
   "status": "proved",
   "theorems": [
    "C93_fitter",
    "C93_refusal",
    "C93_pgauss"
   ],
   "note": "exact characterisation of success and of the exceptions"
  },
  {
   "property": "C94",
   "status": "proved",
   "theorems": [
    "C94_drawn_once",
    "C94_same_draws",
    "C94_refines"
   ],
   "note": "The generator is a state of any type threaded through the PSF fits, metacal and the joint fits in the order of the code; the results proved for the driver without generator (C27 to C33, C68, C88) therefore hold for every seed in the settings of C94_drawn_once."
  },
  {
   "property": "C95",
   "status": "proved",
   "theorems": [
    "C95_other_fitters"
   ],
   "note": "Both runs are assumed to succeed, since a joint fit may raise."
  },
  {
   "property": "C96",
   "status": "partial",
   "theorems": [
    "C96_colours_refuted",
    "C96_moments_partial"
   ],
   "note": "REFUTED: metacal on the observations of a colour comes after the joint fits of earlier objects, so a further joint fitter changes the random numbers metacal gets and with them the moments columns. Proved for moments fitters only with the same first fitter."
  },
  {
   "property": "C97",
   "status": "proved",
   "theorems": [
    "C97_appended"
   ],
   "note": "Any fitters and colours; from any state of the cache."
  },
  {
   "property": "C98",
   "status": "partial",
   "theorems": [
    "C98_go_again_partial",
    "C98_joint_refuted"
   ],
   "note": "Proved for moments fitters, colours included. REFUTED for joint fitters: the second go() fits again with new random numbers."
  },
  {
   "property": "C99",
   "status": "partial",
   "theorems": [
    "C99_each_band",
    "C99_nothing_detected",
    "C99_with_i_partial",
    "C99_without_i",
    "C99_any_bands_refuted"
   ],
   "note": "REFUTED for bands without one called i: the footprints are always attached from band i, so that such a run raises as soon as anything is detected (the stack is assumed to raise for a band that was not modelled). Proved for bands with i."
  },
  {
   "property": "C100",
   "status": "partial",
   "theorems": [
    "C100_seed_partial",
    "C100_no_influence",
    "C100_fitgauss_refuted"
   ],
   "note": "Proved when the caller asks for another reconvolution than fitgauss or the PSF fits agree. REFUTED for the default reconvolution fitgauss, where the drawn PSF sizes enter the images."
  },
  {
   "property": "C101",
   "status": "partial",
   "theorems": [
    "C101_added_types",
    "C101_common_type",
    "C101_shared_generator_refuted"
   ],
   "note": "Proved: added types change nothing, and a common type has the same columns but those of the Gaussian fit. REFUTED for the Gaussian fit when other types come before: the generator is shared. The two configurations are compared by the settings read from them."
  },
  {
   "property": "C102",
   "status": "proved",
   "theorems": [
    "C102_seed",
    "C102_no_influence"
   ],
   "note": ""
  },
  {
   "property": "C103",
   "status": "partial",
   "theorems": [
    "C103_one_scale_partial",
    "C103_first_missing",
    "C103_two_scales_refuted",
    "C103_band_counts_refuted"
   ],
   "note": "REFUTED in general: the runner for the whole list is made from the first stamp of the first object (fitting.py:341-350), so with two pixel scales or different numbers of bands the first object decides the prior of all others. Proved for lists with one pixel scale, and for lists whose first object misses its first band. The influence of the shared random number generator is in C94-C98."
  },
  {
   "property": "C104",
   "status": "partial",
   "theorems": [
    "C104_single",
    "C104_list_partial",
    "C104_list_refuted"
   ],
   "note": "Proved for single fits; REFUTED for lists with two pixel scales, proved for lists with one."
  },
  {
   "property": "C105",
   "status": "partial",
   "theorems": [
    "C105_values",
    "C105_missing_partial",
    "C105_complete_partial",
    "C105_negative_refuted",
    "C105_cut_refuted"
   ],
   "note": "REFUTED as stated: pixels whose largest value over the bands is zero are dropped even if another band is negative, and a source that reaches out of the observation is cut before the convolution. Proved: every pixel of the footprint holds the complete model, what is missing has no positive value in any band, and nothing is missing for non negative models and kernels inside the observation."
  },
  {
   "property": "C106",
   "status": "partial",
   "theorems": [
    "C106_subtracted_partial",
    "C106_wings_refuted",
    "C106_catalogue_box_refuted"
   ],
   "note": "REFUTED as stated: light outside of the box of the blend or of the catalogue's footprint stays in the image. Proved for pixels in the blends' boxes when the catalogue's boxes hold the models."
  },
  {
   "property": "C107",
   "status": "proved",
   "theorems": [
    "C107_detection",
    "C107_masked_fraction",
    "C107_masks",
    "C107_psf",
    "C107_shear_bands",
    "C107_exposures",
    "C107_observations",
    "C107_task_masks",
    "C107_task_mfrac",
    "C107_geometry_refuted"
   ],
   "note": "Values are compared as rational numbers (floating point sums may round differently). C107_geometry_refuted shows the exception named in the statement: the geometry of the lsst coadds comes from one band. The combination of fluxes over bands is C37."
  },
  {
   "property": "C108",
   "status": "proved",
   "theorems": [
    "C108_coadd",
    "C108_exposures",
    "C108_observations",
    "C108_task_mfrac"
   ],
   "note": "Same outcome with all weights multiplied by c > 0: equal images, masks, psfs, flags and exceptions; weights c times larger, variances c times smaller. The detection image and the masked fraction of the metacal path are C12_weight_scale_invariant and C24_scale_invariant."
  },
  {
   "property": "C109",
   "status": "proved",
   "theorems": [
    "C109_detection",
    "C109_coadd",
    "C109_exposures",
    "C109_observations"
   ],
   "note": "Three runs, with images x, y and c x + d y, end alike and the third image is c times the first plus d times the second in every pixel."
  },
  {
   "property": "C110",
   "status": "proved",
   "theorems": [
    "C110_mfrac",
    "C110_masks",
    "C110_mask_lookup",
    "C110_psf_fits",
    "C110_ormasks",
    "C110_mfracs",
    "C110_ormask_lookup",
    "C110_mean_psf",
    "C110_obs2exp",
    "C110_extract",
    "C110_coadd",
    "C110_lsst_run",
    "C110_phot_run",
    "C110_stamp"
   ],
   "note": "Equivalences between each outcome and a condition on the inputs. An accepted configuration is one with which some run returns."
  },
  {
   "property": "C111",
   "status": "proved",
   "theorems": [
    "C111_object_flags",
    "C111_psf_flags",
    "C111_flux_flags",
    "C111_no_shear_band",
    "C111_band_results"
   ],
   "note": "Bit by bit equivalence. For regularized fits the averaged moments are taken to be finite; for the averaged PSF, object and PSF fits both have a norm or both have none."
  },
  {
   "property": "C112",
   "status": "proved",
   "theorems": [
    "C112_psf_average"
   ],
   "note": "Given that the moment routine returns moment ratios; object and PSF fits both have a norm or both have none."
  },
  {
   "property": "C113",
   "status": "proved",
   "theorems": [
    "C113_gauss",
    "C113_admom"
   ],
   "note": "When adaptive moments of the object raise, the flags column holds OBJ_FAILURE alone; the flags of the PSF are only in the PSF column. Fits are arbitrary functions."
  },
  {
   "property": "C114",
   "status": "proved",
   "theorems": [
    "C114_masks",
    "C114_wavg",
    "C114_gauss",
    "C114_admom",
    "C114_lsst_ormask",
    "C114_lsst_bmask"
   ],
   "note": "Flags of ngmix and the pixels of the input masks are assumed to be in range."
  },
  {
   "property": "C115",
   "status": "proved",
   "theorems": [
    "C115_flags"
   ],
   "note": "Fits are arbitrary functions of the stamps. The shear bands are bands of the exposure, as extract_shear_band_indices gives them."
  },
  {
   "property": "C116",
   "status": "partial",
   "theorems": [
    "C116_refuted",
    "C116_shear_bands_only_partial"
   ],
   "note": "REFUTED: an object without usable variance in another band is not measured at all. Proved for objects that have a stamp in both cases."
  },
  {
   "property": "C117",
   "status": "proved",
   "theorems": [
    "C117_stored",
    "C117_cutout_position",
    "C117_pixel_in_stamp",
    "C117_exact_catalogue"
   ],
   "note": "The last theorem says that the exact arithmetic catalogue used by the other areas is the floating point one for the stored positions. Overflow and nan are not modelled."
  },
  {
   "property": "C118",
   "status": "partial",
   "theorems": [
    "C118_inside_refuted",
    "C118_index_partial",
    "C118_own_pixel_partial",
    "C118_close_partial",
    "C118_clipped"
   ],
   "note": "REFUTED for the LSST pipeline: an object 2^-30 of a pixel inside the upper edge of an exposure is stored in the next row, which does not exist, and the run stops with an IndexError. Proved: the index is the pixel of the stored position, the object's own unless it is within the storage error of a pixel edge; the other pipeline rounds and clips and never leaves the image."
  },
  {
   "property": "C119",
   "status": "proved",
   "theorems": [
    "C119_band_mean",
    "C119_fully_masked",
    "C119_unmasked",
    "C119_task_mean",
    "C119_pixel_mean",
    "C119_image_mean"
   ],
   "note": "numpy's sum of the band weights is taken from left to right, as it is for fewer than eight bands. The sums over pixels are ngmix's. Overflow and nan are not modelled."
  },
  {
   "property": "C120",
   "status": "partial",
   "theorems": [
    "C120_full_refuted",
    "C120_full_partial"
   ],
   "note": "REFUTED: with one band of weight 41 in single precision the average is the number below 1, because the sum is multiplied by a rounded reciprocal. Proved: it is never above 1 and never more than one last place below."
  },
  {
   "property": "C121",
   "status": "proved",
   "theorems": [
    "C121_runs",
    "C121_row"
   ],
   "note": "Assumes of the stamp reader (ngmix) that it reads the cutouts' pixels, the PSF image and the number, size and position of the object, and of metacal, the source extractor and the configuration what C88 assumes."
  },
  {
   "property": "C122",
   "status": "proved",
   "theorems": [
    "C122_edge_valid",
    "C122_foreground_valid",
    "C122_two_catalogues",
    "C122_catalogue_order",
    "C122_either_order"
   ],
   "note": "Over real numbers. The settings to ignore zero weights, all planes and both optional branches are compared pixel by pixel."
  },
  {
   "property": "C123",
   "status": "proved",
   "theorems": [
    "C123_ready",
    "C123_either_order",
    "C123_two_lists",
    "C123_list_order",
    "C123_again"
   ],
   "note": "pixel values are real numbers; all planes have one shape"
  },
  {
   "property": "C124",
   "status": "proved",
   "theorems": [
    "C124_local",
    "C124_local_shifted",
    "C124_stamp"
   ],
   "note": "fits are functions of the observations, up to equality of the numbers; bmask is excepted, see C61"
  },
  {
   "property": "C125",
   "status": "proved",
   "theorems": [
    "C125_translation",
    "C125_added_columns"
   ],
   "note": "third-party parts (centroids, wcs, PSF) are assumed to give shifted results"
  },
  {
   "property": "C126",
   "status": "proved",
   "theorems": [
    "C126_detection",
    "C126_noise",
    "C126_coadd",
    "C126_coadd_weight",
    "C126_exposures",
    "C126_mfrac",
    "C126_lsst_mfrac",
    "C126_psf",
    "C126_largest",
    "C126_orders",
    "C126_detection_image",
    "C126_coadd_image"
   ],
   "note": "Every rounding modelled, any number of bands, any order of summation. Overflow and nan are not modelled; the weights are representable, between 2^-b and 2^b, with 4b plus the precision below the exponent of the least number."
  },
  {
   "property": "C127",
   "status": "proved",
   "theorems": [
    "C127_detection",
    "C127_detection_unusable",
    "C127_coadd",
    "C127_coadd_unusable",
    "C127_exposures",
    "C127_exposures_unusable",
    "C127_mfrac",
    "C127_mfrac_refused",
    "C127_shapes"
   ],
   "note": "The finite values are exact rationals. A band may have nan weights but no weight of +infinity in the first three theorems."
  },
  {
   "property": "C128",
   "status": "partial",
   "theorems": [
    "C128_detection",
    "C128_catalogue",
    "C128_medsify",
    "C128_stamps",
    "C128_object_mfrac",
    "C128_mask_columns",
    "C128_masked_fraction",
    "C128_masks",
    "C128_shear_bands",
    "C128_weights",
    "C128_exposures",
    "C128_edge",
    "C128_bright_mask",
    "C128_bright",
    "C128_lsst_edge",
    "C128_lsst_bright",
    "C128_unsheared",
    "C128_sheared",
    "C128_interpolated",
    "C128_not_interpolated",
    "C128_lsst_masks",
    "C128_lsst_ormask_column",
    "C128_lsst_mfrac",
    "C128_lsst_mfrac_column",
    "C128_symmetrized_refuted"
   ],
   "note": "REFUTED for bright object masks with symmetrize=True (C128_symmetrized_refuted); the theorems cover the rest. The weight function of an object and the interpolator are assumed to treat the coordinates alike; the jacobian of the turned image has rows and columns and the two sky directions exchanged. Interpolation with noise filling and the interpolation method of masking are not covered."
  },
  {
   "property": "C129",
   "status": "partial",
   "theorems": [
    "C129_mbexp",
    "C129_no_peaks",
    "C129_mosaic",
    "C129_compare",
    "C129_compare_short",
    "C129_three",
    "C129_not_three",
    "C129_each_band",
    "C129_image_and_mask",
    "C129_exp",
    "C129_image",
    "C129_mbobs",
    "C129_mbobs_refuted",
    "C129_demo_refuted"
   ],
   "note": "REFUTED for show_multi_mbobs unless there are exactly three bands (rows and columns of its panels are swapped, so it raises) and for show_mbexp_demo (it uses a name that is not defined); proved for all other viewers. What matplotlib, AsinhMapping, img_to_rgb and the ds9 display do with their arguments is not modelled."
  },
  {
   "property": "C130",
   "status": "partial",
   "theorems": [
    "C130_detection",
    "C130_masks",
    "C130_mask_column",
    "C130_masked_fraction",
    "C130_object_mfrac",
    "C130_coadd",
    "C130_bright_mask",
    "C130_bright_apodize",
    "C130_bright_interp",
    "C130_bright_interp_refuted",
    "C130_lsst_bright",
    "C130_lsst_ormask",
    "C130_lsst_bmask",
    "C130_lsst_coadd",
    "C130_lsst_run"
   ],
   "note": "REFUTED in one place: an object that covers the whole image takes the interpolation bit away (C130_bright_interp_refuted; C130_bright_interp proves the claim for all other bits, and for all bits while some pixel is left). The rest is proved as stated."
  },
  {
   "property": "C131",
   "status": "partial",
   "theorems": [
    "C131_runs",
    "C131_row",
    "C131_moments",
    "C131_flux",
    "C131_gauss_partial",
    "C131_admom_partial",
    "C131_joint_refuted"
   ],
   "note": "REFUTED in the last sentence: the joint fitters do not attempt an object whose stamp in another band is missing, unweighted or has a forbidden bit. The first band's jacobian and PSF image size count for all bands. Runners are deterministic functions of the stamps they are given."
  },
  {
   "property": "C132",
   "status": "proved",
   "theorems": [
    "C132_tables",
    "C132_columns",
    "C132_types",
    "C132_read",
    "C132_distinct"
   ],
   "note": "Assumes that metacal keeps the number of bands and that the coloured observations have as many bands as the main ones (otherwise stacking is a TypeError). With one band the code's band columns are scalars, in the model lists of length one. What the values are is C88."
  },
  {
   "property": "C133",
   "status": "proved",
   "theorems": [
    "C133_fit",
    "C133_average",
    "C133_tables",
    "C133_admom_fluxes",
    "C133_summary_refuted"
   ],
   "note": "Assumes that the unflagged results of ngmix are numbers, that an unflagged PSF has a positive size and that its joint fit is not run without stamps. The stronger claim that flags 0 means that all columns are numbers is refuted for the joint fitters (C133_summary_refuted): the Gaussian fit has no fluxes in bands outside the shear bands and adaptive moments measure no fluxes at all (C133_admom_fluxes)."
  },
  {
   "property": "C134",
   "status": "proved",
   "theorems": [
    "C134_tables",
    "C134_photometry",
    "C134_ratio_refuted",
    "C134_fluxes_refuted"
   ],
   "note": "Assumes of ngmix what C133 does. Two stronger claims are refuted: the pgauss table has no PSF flags, so pgauss_T_ratio can be nan where pgauss_T_flags is 0 (C134_ratio_refuted; pgauss_obj_flags then has PSF_FAILURE), and without gauss_flags the fluxes of the bands outside the shear bands are nan (C134_fluxes_refuted)."
  },
  {
   "property": "C135",
   "status": "proved",
   "theorems": [
    "C135_tables"
   ],
   "note": "The images of a shear type are those of C87. The causes of the averaged moments (moment_cause) are stated under the conditions of C115."
  },
  {
   "property": "C136",
   "status": "proved",
   "theorems": [
    "C136_settings",
    "C136_missing",
    "C136_default",
    "C136_default_refuted"
   ],
   "note": "Extends C92 to the detections of a whole run and to detection packages that change the dictionary they are given. The user's dictionary is copied one level deep; values inside it that can themselves be changed in place are shared, and run_sep is taken to change only the dictionary it is given. Without sx the package's own dictionary is handed over itself: that every shear type sees the same settings then needs the proviso that the package leaves it alone (C136_default; C136_default_refuted shows the proviso is needed)."
  },
  {
   "property": "C137",
   "status": "proved",
   "theorems": [
    "C137_new",
    "C137_history",
    "C137_psf"
   ],
   "note": "The pixels of a stamp are those of C08 (get_cutout of Detect_model.v); here the arrays are objects in memory. A user changes only arrays they were given."
  },
  {
   "property": "C138",
   "status": "proved",
   "theorems": [
    "C138_runs",
    "C138_row"
   ],
   "note": "Assumes that the stamp reader (ngmix, third party) uses the position in the stamp, not the position in the image. Exact positions: the code stores them in single precision, so the position in the stamp can differ in its last digits (C117). Stamps that reach over an edge are excluded: at a low edge they are shifted (C11), at a high edge filled (C08). The unsheared position, mask and masked fraction columns are not part of the claim: unshearing is about the centre of the image."
  },
  {
   "property": "C139",
   "status": "partial",
   "theorems": [
    "C139_returns_partial",
    "C139_colour_returns_partial",
    "C139_returns_refuted",
    "C139_setting_unshears",
    "C139_large_image"
   ],
   "note": "REFUTED: measure_mfrac at the unsheared position of an object raises a ValueError (shapes of the stamp and the image cut differ) when that position is half of a stamp or more above the last row or column; C139_returns_refuted runs the whole call, C139_large_image shows that the default step and stamps of 32 pixels suffice for images of 3600 to 9000 rows. Proved: the call returns whenever all unsheared positions stay within half of the smallest stamp of the image, with and without colours, for all pixels, masks, detections, bands and fitters. With colours the first fitter must be a weighted average."
  },
  {
   "property": "C140",
   "status": "proved",
   "theorems": [
    "C140_measure",
    "C140_own_fits"
   ],
   "note": "The mask lookup of the whole run, which comes later and can fail, is not part of the measurement."
  },
  {
   "property": "C141",
   "status": "partial",
   "theorems": [
    "C141_run_partial",
    "C141_sky",
    "C141_centroid_refuted"
   ],
   "note": "REFUTED for objects with a centroid beyond the edge of the exposure: the lookup of the mask raises IndexError and the whole run is lost, even if the centroid is out by a tenth of a pixel. Proved when all objects are placed within the exposure, with the SDSS deblender; the scarlet deblender is C143."
  },
  {
   "property": "C142",
   "status": "partial",
   "theorems": [
    "C142_photometry_partial",
    "C142_centroid_refuted"
   ],
   "note": "REFUTED for objects with a centroid beyond the edge of the exposure: the lookup of the mask raises IndexError and the whole table is lost. Proved when all objects are placed within the exposure."
  },
  {
   "property": "C143",
   "status": "partial",
   "theorems": [
    "C143_measure",
    "C143_run_partial",
    "C143_centroid_refuted"
   ],
   "note": "Proved for the measurement. For the whole run proved when all objects are placed within the exposure; REFUTED otherwise: the lookup of the mask raises IndexError. One band always raises (C85_single_band_refuted)."
  }
 ]
}