# Formal model of metadetect in Rocq (Coq 8.16.1)

## Approach

* The model is a set of total, computable Gallina functions, one per Python
  function, in `rocq/theories/`. Exceptions are values (`Raise e`); in-place
  updates return the new value, or act on an explicit heap or store where the
  identity of an object matters (dictionaries of the caller, exposures, the
  metacal cache, images that are subtracted and restored).
* Two dimensional arrays are records (number of rows, number of columns, a
  function from row and column to the value); loops are folds over ranges.
  Python slice, negative index, `rot90`, `digitize` semantics are explicit.
* Pixel values are exact rationals (`Q`) or an extended number type with
  infinities and NaN where the code tests for them; reals (`R`) where the code
  takes a square root (apodized foreground masks, shears). Floating point
  rounding is not modelled, except where a property is about it: C59 is refuted
  with IEEE binary32 arithmetic (`SpecFloat` of the standard library), and the
  area Fp (C117 to C120) models the single precision position columns, the mask
  lookups and the masked fraction averages with every rounding (Flocq); the area
  Fpe (C126) bounds the rounding errors of the coadds and averages over bands.
* Third party components (source detection, metacal, ngmix fitters, the
  Clough-Tocher interpolator, the LSST stack) are universally quantified
  function arguments; anything assumed of them is a hypothesis of the theorem
  and listed under "Assumptions about third party components".
* Files per area: `X_model.v` (definitions with citations, no proofs),
  `X_spec.v` (independent specification), `X_proofs.v` (lemmas) and
  `X_props.v` (theorem statements, non-vacuity examples, `Print Assumptions`).
* A property that is false of the code keeps its statement. Its falsity is a
  theorem with suffix `_refuted` (a witness), the part that holds has suffix
  `_partial` or states exactly what the code does instead, and the status in
  MANIFEST.json is "partial".
* `seeded/LOG.jsonl` lists the wrong programs tried against the theorems.

## Plan and outcome per property

| id | property | plan | outcome |
|----|----------|------|---------|
| C01 | Processing flags decode uniquely | Z bit operations; membership of bit 19..30; proved by Z.testbit reasoning for arbitrary subsets. | proved: any list of flags over any ngmix value below bit 19 |
| C02 | The flag name table is a two-way dictionary | association-list dictionary, construction order as in the code; induction over the flag list. | proved: get_flags_str is third party and modelled from its documentation |
| C03 | Column names of different quantities never collide | Coq strings; injectivity of append. | proved: all prefixes, suffixes and names |
| C04 | Unshearing a sheared position returns the original position (and conversely) | reals R; matrix algebra, field. | proved: real arithmetic; wcs is an affine map with invertible jacobian |
| C05 | Types with no image shear do not move positions, unknown types are rejected | strings; case analysis. | proved:  |
| C06 | Opposite shears undo each other and preserve area | reals R; matrix algebra. | proved:  |
| C07 | The stamp size assigned to a detection is the smallest allowed one that fits | Z/Q; digitize as count of bins < x; induction over the sorted bin list. | proved: for 0 < min_box_size <= max_box_size |
| C08 | Stamp pixels are image pixels or the documented fill values | Z-indexed arrays with numpy slice semantics; pixelwise proof. | proved: all starts that overlap or touch the image; starts beyond it raise |
| C09 | The stamp is anchored to the object | Z/Q positions; lia after trunc lemmas. | proved:  |
| C10 | EDGE bits in stamps mark pixels outside the image | corollary of C08 for bmask cutouts. | proved:  |
| C11 | Objects near a low edge are not centred in their stamp | expected to be refuted: start is clipped at 0 instead of padded; witness by computation, plus exact characterisation. | partial: REFUTED as stated: near a low edge the start is clipped at 0 and the object is off centre; exact condition for centring proved |
| C12 | The detection image is the weighted average of the detection bands | Q sums; induction over the band list. | proved: exact rationals; detnoise given as 1/detnoise^2 |
| C13 | The apodization kernel is a smooth step between 0 and 1 | R polynomial; nra / factorisation of the polynomial and of its derivative. | proved: real arithmetic |
| C14 | Edge apodization touches exactly the frame | R arrays, loops as folds; per pixel product of kernel values. | proved: any image shape, any positive scale |
| C15 | Edge apodization updates every plane consistently | state record of planes; pixelwise. | proved: all observations have the shape of the first |
| C16 | Bright object masks are exactly the union of discs | R arrays; induction over catalogue. | proved: for non-negative radii |
| C17 | Symmetrized masks contain the mask and its 90 degree rotation | rot90 as index map; error for non square shapes. | proved:  |
| C18 | Interpolated and apodized masking agree on which pixels are masked | R; induction over catalogue; kernel < 1 iff inside. | proved: for non-negative radii |
| C19 | Foreground masking changes only masked pixels | state record of planes, interpolator as an arbitrary function argument. | proved: interpolator, median and generator are oracles; C19_interp needs a non-zero mask bit |
| C20 | Expanding the mask radius only ever masks more | corollary of C16. | proved:  |
| C21 | The good-pixel search is exact and never overflows its buffers | loops with preallocated arrays as folds with explicit bounds errors; invariant by induction. | proved: the grouping window and index arithmetic as written, any image size |
| C22 | Interpolation preserves good pixels and replaces bad pixels by their own interpolated value | uses C21; interpolator is an arbitrary function. | proved: Clough-Tocher and the generator are oracles |
| C23 | Filling isolated regions never starves the interpolator | minimum-distance / adjacent pixel argument. | proved:  |
| C24 | The combined masked fraction is a weighted mean of the bands | Q sums. | proved: exact rationals |
| C25 | Mask columns are the OR of the mask over the clipped neighbourhood | OR over windows; induction. | proved: integer region sizes; nan positions not modelled |
| C26 | PSF summary columns are weighted means or flagged | Q sums with error flags. | proved: a result without the needed keys raises KeyError |
| C27 | When the pipeline gives up it says so, otherwise every requested type is present | go() as a state machine with oracles for detection, metacal, fitting. | proved: go() on a new object or after any history without exceptions; metacal returns a dictionary with the requested types |
| C28 | Each output table stacks the band combinations in order | lists; induction. | proved: detector, stamps and fitters are deterministic functions |
| C29 | Every requested band combination is run | expected to be refuted (zip truncates). | partial: REFUTED for lists of different lengths: the construction accepts them and the surplus combinations are silently dropped. Proved for lists of equal length. |
| C30 | Caching of metacal results is transparent | state monad for the cache; invariant over histories. | proved: histories of requests and go() calls without exceptions; equality up to the representation of rationals |
| C31 | A failed metacal does not poison later requests | expected to be refuted (KeyError on retry). | partial: REFUTED: after an exception in metacal the next request returns an entry without metacal results, and a second go() can succeed where the first one raised; proved part: data returned complete is always the data of the uncached computation |
| C32 | Colour dependent processing with identical inputs changes nothing | list lemma on the partition by colour. | proved: stamps must not depend on the segmentation map (the colour path never passes it) and the first fitter must give fluxes for what it can fit |
| C33 | Output row integrity: every detection appears exactly once in the colour path | list lemma. | partial: REFUTED when the PSF step of metacal fails for a colour: its detections are missing. Proved when it fails for no colour. |
| C34 | Configuration is validated before any work | configuration record; case analysis; expected partial refutation for fwhm_reg with non-moment fitters. | partial: Proved: construction succeeds exactly on the usable configurations, every accepted fitter configuration has a complete fitter with its aperture, and the exceptions are characterised (a joint model with fwhm_reg is an AttributeError). REFUTED part: an empty fitters list is accepted and fails later. Entries read later by detection (meds, sx) are not modelled here. |
| C35 | A clean flag means every shear band contributed | extended numbers with NaN; induction over bands. | partial: REFUTED in the part "its object and PSF fits succeeded": per band fit flags are only logged. Proved: data, moments, positive weights, no band flags. |
| C36 | PSF failures propagate to the object flags | bit reasoning. | proved:  |
| C37 | Multi-band moments are weighted means | Q algebra. | proved: make_mom_result of ngmix is an argument, assumed to be a function of the values |
| C38 | A star has size ratio one in every band combination | Q algebra. | proved: make_mom_result is assumed to return T = M4/M5 when it sets no flag |
| C39 | Shear bands that do not exist are reported | expected to be refuted for wavg; proved for joint fitters. | partial: REFUTED for the weighted average fitter and for adaptive moments with one band; proved for the Gaussian fitter, for adaptive moments with a band count other than one, and for the weighted average when none of the shear bands exists |
| C40 | The band label identifies the band combination | proved for single digit band lists, refuted in general. | partial: REFUTED in general (bands 1,2 and 12; a label is cut after six characters); proved for band numbers 0 to 9 |
| C41 | Size regularization changes only the shape | extended numbers. | proved:  |
| C42 | The band coadd is the weighted mean with propagated variance | Q algebra on pixels. | proved: exact rationals; non-negative weights for the weight plane; meta not modelled |
| C43 | Coadds fail only for documented reasons | case analysis. | partial: exact outcome characterisation proved; REFUTED only for the last sentence when there is one input band: later shear band indices are not checked |
| C44 | Failed fits keep their defaults and are flagged | oracle results, case analysis. | proved: ngmix bootstrap and the adaptive moments runner are arguments, any outcome is allowed |
| C45 | Weight symmetrization zeros whole rotation orbits | rot90 index algebra. | proved: an isolated negative weight is kept (side theorem) |
| C46 | Combining fit results keeps every column of every row | tables as association lists. | proved:  |
| C47 | List fitters return one row per object in order | induction. | proved:  |
| C48 | Masked fraction per object is a weighted mean over in-image pixels | Q weighted mean; oracle for the Gaussian weight. | proved: Gaussian aperture abstracted as positive weights |
| C49 | User configuration overrides defaults and nothing else | nested dictionaries as association lists. | proved: dictionaries are heap objects, so aliasing and mutation are observable; values that are not sub-dictionaries are shared with the user's dictionary by design |
| C50 | Task configuration overrides take effect | expected partial refutation (stamp_size override is lost). | partial: REFUTED for the key stamp_size: its value is accepted and dropped, and it is accepted even when no such field exists. Everything else is proved for every override dictionary without that key. Value validation by pex_config is not modelled |
| C51 | Shear band names map to the right indices | lists. | partial: REFUTED: the order is that of the data, not of the request. Exactness as a set, all bands without a request, and the error are proved |
| C52 | LSST stamp boxes are centred, odd sized, or clipped | integer boxes. | proved: boxes are inclusive pixel boxes as in lsst.geom.Box2I; stamp sizes are non-negative |
| C53 | Odd trimming is lossless on odd images | Z arrays. | partial: REFUTED for even square images, which are returned unchanged and so stay even. Proved for all odd dimensions |
| C54 | Exposure to observation conversion round trips | extended numbers. | partial: Proved: into an existing exposure with a wcs, same mask plane named in both directions: image, positive weights, zero weights, that mask plane and the psf come back; and exposure to observation and back; where each plane comes from. REFUTED: with the default arguments the bmask comes back as the ormask, the noise is lost, and a newly made exposure has no wcs and cannot be converted back. |
| C55 | LSST coadds are weighted means of good pixels | Q sums; expected to be refuted for pixels with non positive variance. | partial: Proved: weighted mean where all bands are good, exact formula elsewhere, OR of the masks, variance formula, propagated variance for constant variances, normalised weighted psf. REFUTED: pixels bad in one band are divided by the weight of all bands; the variance is not the propagated one when variances vary; a band without positive variance gives NaN (proved to happen for every such band); a pixel of infinite variance counts with the full weight of its band; psf evaluated without the corner of the box. |
| C56 | Mask columns in LSST outputs come from the object's own pixel | Z arrays with Python negative-index semantics; refuted off image. | partial: Proved for objects whose position lies on the image. REFUTED outside it: a centroid with a negative pixel reads the mask on the opposite side of the image. The mask of the detection image (bmask) is in C61. |
| C57 | LSST masked fractions are measured on the object's own neighbourhood | refuted: x and y slices are swapped. | partial: REFUTED: the slice of the map uses x for rows, so an object's masked fraction is that of the transposed position. Proved: what is measured instead, that it is right on the diagonal of a square map, the range, and the band mean. |
| C58 | Failure to fit the original PSF is flagged, not fatal | expected to be refuted. | partial: REFUTED: every foreseen PSF failure raises AssertionError or UnboundLocalError from the run. Proved: successful fits give the weighted means over the shear bands; no table is ever flagged. |
| C59 | Subtracted models can be added back exactly and are always removed again | transition system over add/subtract with exceptions; invariant. | partial: Proved for every program (nested and repeated add_source blocks, exceptions anywhere) for exact pixel arithmetic and bands that have models. REFUTED for the 32 bit floats of the exposures: with two overlapping sources neither the shown nor the restored image is exact. Also REFUTED when a band has no model: the KeyError comes before the try statement and leaves earlier bands changed. |
| C60 | Noise replacement is undone on exit and re-done on failure | transition system; partial. | partial: Noise after every block: proved for every program. Restoration at the end: proved for every program if the construction succeeds and parents cover the children. REFUTED otherwise: a failure while making a later band's replacer leaves earlier bands as noise; a catalogue of children only is never restored. NoiseReplacer itself is modelled after its documentation, without mask planes. |
| C61 | Per-object output rows of the LSST measurement describe one object each | list alignment; refuted when parents are present. | partial: One row per source without children with position and fits of the same source: proved. REFUTED for the mask value: row n gets the value of the n-th source of the whole catalogue. |
| C62 | Detection with unusable data returns an empty result | expected to be refuted (wrong tuple length). | partial: REFUTED: without a coadd the detection returns two values and its caller unpacks three (ValueError). Proved: nothing detected gives the empty result. |
| C63 | Metacal fixed-noise variance is doubled consistently | pixelwise; rot90 algebra. | partial: REFUTED when the noise has fewer bands than the data (the remaining bands silently keep their noise and variance) and when a type is repeated (single exposure function adds the noise twice). Proved otherwise, for any image operations, which are arguments. |
| C64 | Background means accumulate over all iterations | induction over iterations. | partial: REFUTED for runs that return no result (a stack or task error): the recorded level is then only that of the last background; and when the detection re-estimates the background. Proved for runs that return a result without a re-estimate. The stack's tasks are arguments. |
| C65 | User detection thresholds are honoured | expected to be refuted. | partial: Proved: a non-zero threshold of the user is the one used for detection and sky subtraction by run_metadetect, run_photometry, the detection task, the iterated sky subtraction and subtract_sky_mbexp; all other detection settings of run_metadetect are fixed. REFUTED: a threshold of zero becomes 5; other detection options are accepted and ignored by run_metadetect; a threshold in the dictionary argument loses to the default of the thresh argument; the dictionary of the caller is changed. |
| C66 | LSST edge and bright masks update every plane consistently | pixelwise; reuses the masking model. | proved: Pixel values are real numbers; the planes of all bands have the shape of the first band's image. The state after an exception is not modelled. |
| C67 | Construction leaves the caller's configuration alone | dictionaries with identity (references into a heap); construction returns the changed heap; expected to be refuted. | partial: REFUTED: an admom/am/gauss configuration without an aperture is filled in inside the caller's dictionary. Proved for configurations in which every fitter has an aperture. |
| C68 | Running go() again gives the same result | go() as a program on the cache state; histories of calls; determinism from the cache invariant. | proved: deterministic components; with a random number generator see C94 and C98 |
| C69 | Stamps for LSST measurements weight pixels by their variance | stamp of an exposure; median of the positive variances over Q; expected to be refuted for pixels without data. | partial: Proved: constant weight 1/median positive variance, refused exactly when there is none, pixels, jacobian and psf from the right place. REFUTED: pixels without data get that weight too. |
| C70 | The local jacobian keeps the pixel area and the position | Q algebra of the 2x2 jacobian; wcs as a function argument. | proved:  |
| C71 | Extraction of multiband coadd data keeps the original masks | exposures with identity; induction over the band list; refuted when bands share an exposure. | partial: Proved when the exposures of all the bands are distinct objects. REFUTED when bands share one exposure: the second gets a zero mask. |
| C72 | Coadds of observations use good pixels only | Q sums per pixel; expected to be refuted for pixels with zero weight. | partial: Proved: the exact sum, weights of bands positive, weight maps add up, normalised weighted psf. REFUTED: pixels with zero weight contribute to the image. |
| C73 | The deblender chosen in the configuration is the one used | configuration dictionaries; case analysis on the deblender name. | partial: Proved for run_metadetect. REFUTED for run_photometry, which accepts the option and always uses the SDSS deblender. |
| C74 | One annotated table per sheared image in the LSST run | LSST driver loop; induction over the metacal types. | proved: Every run that returns; mask bits for objects on the image; the masked fraction is the one C57 describes. |
| C75 | The optional inputs of the LSST run are optional | option arguments; expected to be refuted for mfrac. | partial: Masks are optional. REFUTED for the masked fractions: the default None always raises TypeError. |
| C76 | LSST stamp flags say why an object was not measured | case analysis of the measurement of one object with exceptions as values. | proved: For the SDSS deblender's extractor; every variance map, stamp size and position. |
| C77 | LSST positions are always reported | case analysis; expected to be refuted for the sky position. | partial: REFUTED for the sky position: it stays NaN when the centroid is replaced by the peak. |
| C78 | LSST tables always have the same columns | column lists of all branches compared. | proved: Column names as literal lists in Lmeas_spec. |
| C79 | Stamps of the extractor are cut out around the right source | extractor as functions on a source catalogue; integer boxes. | partial: get_mbobs proved. REFUTED: get_stamp always raises AttributeError. |
| C80 | Stamps of a model subtractor: which pixels and which size | transition system of the subtractor; box arithmetic. | partial: Proved with a stamp size. REFUTED without one: always TypeError, because the footprint is unpacked as a pair. The stamp size is ignored for type 'model'. |
| C81 | A model subtractor can be made and its children are the modelled sources | loops over bands and blends; induction. | partial: Proved for two or more bands. REFUTED for one band: always TypeError as soon as one source was deblended. |
| C82 | The noise image has the median variance of the good pixels | Q median; sqrt kept as the variance. | proved: The random draws are a parameter. |
| C83 | Weighted-average fits: bands that cannot be measured | extended numbers; case analysis per band. | proved: moment fits are oracles |
| C84 | Added columns belong to the row's own position, bands and colour | columns added by the driver as functions of the row's own position; per pixel specifications from C24, C25, C48. | proved: images with at least one pixel; go() on a new object or after any history without exceptions |
| C85 | With scarlet models every source is measured with the other models removed | composition of the subtractor and the measurement models; loop invariant: the subtracted image is restored. | partial: Proved for pixel arithmetic without rounding; with 32 bit floats it fails where models overlap (C59_float_refuted). REFUTED for a single band: the heavy footprint cannot be indexed by band and measure raises. |
| C86 | run_photometry returns the measurements of the objects detected with the requested options | composition of the configuration, sky, coadd, detection, measurement and driver models for run_photometry. | partial: Proved for the table; the columns bmask (C61) and mfrac (C57) are not those of the object, the theorem says exactly what they hold instead. REFUTED for the input: with one band that is an ExposureF the detection changes the mask of the caller's exposure, and a call that fails on a missing shear band has already subtracted the sky. Without mfrac_mbexp, the documented default, every call raises; a failing psf fit raises too. |
| C87 | A whole LSST metadetection run returns, for every requested shear type, the table of the correspondingly sheared exposures | composition of those with the metacal model for run_metadetect, against a declarative description of each table. | partial: Proved: settings, sky, metacal images, detection, rows, or-mask and psf columns from end to end, for both deblenders. The columns bmask (C61) and mfrac (C57) are not those of the object; the theorem says what they hold instead. REFUTED: a stamp size in the configuration has no effect; a failing call can leave the sky subtracted. |
| C88 | A whole metadetection run returns, for every metacal type, the measurements made on that type's own images | the driver model instantiated with the models of detection, stamps, fitters and summaries; declarative specification of each row. | proved: End to end: constructor, driver, detection, stamps and fits of the other areas put together; source extractor, metacal, MEDS reader and fitters are functions with the stated assumptions metacal_ok, sep_ok, reader_weight. All images of a run have one shape. |
| C89 | A measurement without flags used a complete stamp without forbidden mask bits | consequence of the stamp model (C08) and of the mask check inside C88. | partial: Proved for the stamp that is used, in every band. REFUTED: that this stamp is centred on the object. Near the low edges the stamp is moved into the image instead of being filled, so the object is off the middle of its stamp, with the pixels beyond the edge missing, and nothing is flagged. |
| C90 | Bright object masks are honoured by detection and statistics whatever mask planes other code registers | global registry of mask planes as an association list with a capacity; histories of registrations; invariants by induction. | proved: The table of planes is modelled after the documentation of lsst.afw.image.Mask (first unused of 32 bits). Real arithmetic for the circles (standard library axioms of the reals). |
| C91 | A stamp of the extractor shows the same pixels of the sky in every band, and what clipping changes | composition of box, sub image and per band loop (Lmeas), with the clip argument; box membership by linear arithmetic. | proved: for all aligned exposures; get_stamp of the extractor raises AttributeError (C79) |
| C92 | The detection configuration of the caller is read, never changed, by any number of detections | dictionaries with identity in a store; induction over the history of constructions. | proved: over a store of dictionaries and all histories of constructions; what sxdes does with the settings is outside of the model |
| C93 | Fitters are chosen by name, with the configured width, and everything else is refused | case analysis of the fitter configuration. | proved: exact characterisation of success and of the exceptions |
| C94 | Which random numbers a run uses | the driver again with a generator state threaded through PSF fits, metacal and joint fits; simulation of the driver without generator. | proved: The generator is a state of any type threaded through the PSF fits, metacal and the joint fits in the order of the code; the results proved for the driver without generator (C27 to C33, C68, C88) therefore hold for every seed in the settings of C94_drawn_once. |
| C95 | Moments columns do not depend on the other fitters (no colours) | lock step comparison of two runs with different fitters; the cached metacal results agree. | proved: Both runs are assumed to succeed, since a joint fit may raise. |
| C96 | Moments columns do not depend on the other fitters (colours) | expected to be refuted: metacal of a colour comes after joint fits. | partial: REFUTED: metacal on the observations of a colour comes after the joint fits of earlier objects, so a further joint fitter changes the random numbers metacal gets and with them the moments columns. Proved for moments fitters only with the same first fitter. |
| C97 | Further band combinations only append rows | the loop over combinations is a fold; prefix property. | proved: Any fitters and colours; from any state of the cache. |
| C98 | Calling go() again | the cache after go() answers every request of a second go(); joint fitters expected to be refuted. | partial: Proved for moments fitters, colours included. REFUTED for joint fitters: the second go() fits again with new random numbers. |
| C99 | Detection with the scarlet deblender | the detection with scarlet with the stack as arguments; the band of the footprints is a constant in the code, expected to be refuted for bands without it. | partial: REFUTED for bands without one called i: the footprints are always attached from band i, so that such a run raises as soon as anything is detected (the stack is assumed to raise for a band that was not modelled). Proved for bands with i. |
| C100 | Only fitted columns depend on the seed (run_metadetect) | run_metadetect again with a generator state threaded through PSF fits and Gaussian fits; lock step comparison of two runs row by row; refinement to Lrun when the state has no influence. | partial: Proved when the caller asks for another reconvolution than fitgauss or the PSF fits agree. REFUTED for the default reconvolution fitgauss, where the drawn PSF sizes enter the images. |
| C101 | Tables do not depend on the other metacal types | metacal of fewer types is a restriction of metacal of more types (induction over bands); the loop over types is a fold, so that later types do not matter. | partial: Proved: added types change nothing, and a common type has the same columns but those of the Gaussian fit. REFUTED for the Gaussian fit when other types come before: the generator is shared. The two configurations are compared by the settings read from them. |
| C102 | Only fitted columns depend on the seed (run_photometry) | the same as C100 for run_photometry. | proved:  |
| C103 | The Gaussian measurement of an object does not depend on the other objects of the list | the runners of the Gaussian fit as records; the list fitter makes them from the first object, expected to be refuted for lists with two pixel scales; otherwise the two runners are equal. | partial: REFUTED in general: the runner for the whole list is made from the first stamp of the first object (fitting.py:341-350), so with two pixel scales or different numbers of bands the first object decides the prior of all others. Proved for lists with one pixel scale, and for lists whose first object misses its first band. The influence of the shared random number generator is in C94-C98. |
| C104 | The prior of a Gaussian fit suits the stamps that are fit | two fitters that agree on suited runners give the same rows. | partial: Proved for single fits; REFUTED for lists with two pixel scales, proved for lists with one. |
| C105 | The pixels that stand for a scarlet source are its complete model as seen through the PSF | boxes, projection and convolution of one source over all integer pixels; the complete model is the sum over the kernel; terms outside of the box vanish. | partial: REFUTED as stated: pixels whose largest value over the bands is zero are dropped even if another band is negative, and a source that reaches out of the observation is cut before the convolution. Proved: every pixel of the footprint holds the complete model, what is missing has no positive value in any band, and nothing is missing for non negative models and kernels inside the observation. |
| C106 | The subtracted images are the data minus the complete models of all sources | the sources of all blends as input of the subtractor of Lsub; the values it removes are summed with C59 and C105. | partial: REFUTED as stated: light outside of the box of the blend or of the catalogue's footprint stays in the image. Proved for pixels in the blends' boxes when the catalogue's boxes hold the models. |
| C107 | The order of the bands does not change the combined data | the models of Detect, Summ, Coadd, Lexp and Lmdet on permuted lists of bands; closed forms of every combined plane are sums and ORs over the list, equal for permutations. | proved: Values are compared as rational numbers (floating point sums may round differently). C107_geometry_refuted shows the exception named in the statement: the geometry of the lsst coadds comes from one band. The combination of fluxes over bands is C37. |
| C108 | Multiplying all weights by one number changes no image | two runs of make_coadd_obs, coadd_exposures, coadd_mbobs and get_mfrac_mbexp, one with all weights multiplied by c; medians and sums scale with c, the comparisons with 0 do not change, and c cancels in every normalised sum. | proved: Same outcome with all weights multiplied by c > 0: equal images, masks, psfs, flags and exceptions; weights c times larger, variances c times smaller. The detection image and the masked fraction of the metacal path are C12_weight_scale_invariant and C24_scale_invariant. |
| C109 | Combined images are linear in the input images | three runs on lists of bands paired with a second image; the control flow reads only shapes, weights and masks, and the image planes are weighted sums, hence linear. | proved: Three runs, with images x, y and c x + d y, end alike and the third image is c times the first plus d times the second in every pixel. |
| C110 | Exactly which inputs are refused, and with which exception | every outcome of each function as an equivalence with a condition on its arguments, by cases on the lists and induction over the bands; for whole runs the conditions are checked in the order of the code. | proved: Equivalences between each outcome and a condition on the inputs. An accepted configuration is one with which some run returns. |
| C111 | Flags of averaged objects are set for a reason, and only for one | flag columns as sets of bits: each step of the sum over the bands and of the combination preserves 'the bits are those of the causes'; the check that object and PSF used the same bands never fires; then the averaged moments are rewritten as weighted means. | proved: Bit by bit equivalence. For regularized fits the averaged moments are taken to be finite; for the averaged PSF, object and PSF fits both have a norm or both have none. |
| C112 | PSF columns average the PSFs of the bands with the fluxes of the object | the closed form of the sums over the bands with the flux ratio simplified per band, then division of two sums with the same total weight. | proved: Given that the moment routine returns moment ratios; object and PSF fits both have a norm or both have none. |
| C113 | The flags of a joint fit have exactly the listed causes | flag columns as sets of bits: the loops over bands and over PSFs accumulate exactly the bits of their causes; numpy index assignment with negative numbers is followed through the flux columns. | proved: When adaptive moments of the object raise, the flags column holds OBJ_FAILURE alone; the flags of the PSF are only in the PSF column. Fits are arbitrary functions. |
| C114 | No integer column overflows | a number is in the range of a signed 32 bit integer exactly when its bits from 31 on agree, which every bitwise operation preserves; the exact bits of the columns are known from C84, C56, C61 and C111. | proved: Flags of ngmix and the pixels of the input masks are assumed to be in range. |
| C115 | Flags of an LSST object come from its fits only | The stamps of a source (Lexp, Lmeas) as observations of fitting.py, and the results of fit_mbobs_gauss and fit_mbobs_wavg (Joint, Wavg) as columns, put in place of the two fits of the measurement (Lfit_model). A stamp made by extract_obs has one observation per band, a mask and a constant positive weight, so no data problem of C113 or C83 occurs and symmetrizing the weights changes nothing; the rest follows from C113 and C111. | proved: Fits are arbitrary functions of the stamps. The shear bands are bands of the exposure, as extract_shear_band_indices gives them. |
| C116 | LSST shear columns depend on the shear bands only | In the composed model of C115 the joint fit reads only the stamps of the shear bands and the number of bands. Refuted by a band without usable variance, which makes measure give up the stamp; proved for objects with a stamp in both cases. | partial: REFUTED: an object without usable variance in another band is not measured at all. Proved for objects that have a stamp in both cases. |
| C117 | Single precision positions stay consistent with their stamps | The f4 columns and the f8 arithmetic between them are modelled with Flocq's FLT formats and rounding to nearest even, over the reals (Fp_model). Exactness of the difference by writing the stored position as significand times power of two; image bounds by monotonicity of rounding and representability of half integers. A rational equal to the stored position gives the entry of the exact model. | proved: The last theorem says that the exact arithmetic catalogue used by the other areas is the floating point one for the stored positions. Overflow and nan are not modelled. |
| C118 | Mask lookups find the object's own pixel despite single precision | The same model for the LSST lookup floor(row - row0 + 1/2) and for rint and clip. Refuted by an explicit position; the index equals that of the exact model because positions of at least 1/4 are multiples of 2^-25, and smaller ones are far from the edge of a pixel. | partial: REFUTED for the LSST pipeline: an object 2^-30 of a pixel inside the upper edge of an exposure is stored in the next row, which does not exist, and the run stops with an IndexError. Proved: the index is the pixel of the stored position, the object's own unless it is within the storage error of a pixel edge; the other pipeline rounds and clips and never leaves the image. |
| C119 | Masked fractions stay fractions in floating point | Averages as left folds (bands, pixels) or trees (numpy's mean) of rounded operations. w*v rounds to at most w, so the rounded weighted sum is at most the rounded sum of weights, step by step; for the reciprocal the relative error of 1/w and ties to even. | proved: numpy's sum of the band weights is taken from left to right, as it is for fewer than eight bands. The sums over pixels are ngmix's. Overflow and nan are not modelled. |
| C120 | A pixel masked in every band has LSST masked fraction one | The same model; refuted by computing the two roundings for weight 41; bounded below by the relative error of the reciprocal and the representability of 1 - 2^-p. | partial: REFUTED: with one band of weight 41 in single precision the average is the number below 1, because the sum is multiplied by a rounded reciprocal. Proved: it is never above 1 and never more than one last place below. |
| C121 | The fits of an object depend on the pixels of its stamp only | The row description of C88 with the stamps fully determined (missing planes included); two stamps are equal when the planes agree under them because the reader sees only cutout pixels; fits are functions of the stamps; stamp sizes are unique. | proved: Assumes of the stamp reader (ngmix) that it reads the cutouts' pixels, the PSF image and the number, size and position of the object, and of metacal, the source extractor and the configuration what C88 assumes. |
| C122 | Masking steps compose: the result of one is valid input of the next, and apodizations commute and combine | On the masking model of C13 to C20: the flag is followed through every step; two apodizations are brought to one normal form (product of factors, union of masks, or of bits) and the forms are compared. | proved: Over real numbers. The settings to ignore zero weights, all planes and both optional branches are compared pixel by pixel. |
| C123 | LSST masking steps can be combined | On the exposure masking model of C66: every step is told by three functions of the pixel (factor, masked or not, bits), two steps are combined into one, and results told by equal functions are the same in every plane (Lcomp). | proved: pixel values are real numbers; all planes have one shape |
| C124 | The LSST row of an object depends on the pixels of its stamp only | On the measurement model of C61: a relation between two runs in frames that differ by a shift, preserved from the boxes of the exposures to the observations, the fits and the row (Lmove). | proved: fits are functions of the observations, up to equality of the numbers; bmask is excepted, see C61 |
| C125 | The LSST measurement does not depend on where the pixel grid starts | The same relation with the detection mask and the catalogue shifted too, carried through the loop with its exceptions; the annotation of the LSST tables on the model of C74 (Lmove). | proved: third-party parts (centroids, wcs, PSF) are assumed to give shifted results |
| C126 | Coadds and averages over bands are accurate in floating point | The averages with every rounding (Fpe_model on the formats of Fp_model; the order of numpy's sum is any binary tree over the weights). Positive quantities (weights, totals, reciprocals) are kept within powers of 1+u of the exact ones, by the relative error of rounding normal numbers and of sums of representable numbers; values with signs carry an absolute error relative to the sum of the absolute values plus an underflow term; the powers are bounded by Bernoulli's inequality at the end. C126_detection_image and C126_coadd_image tie the exact averages to the images of C12 and C42 (Fpe). | proved: Every rounding modelled, any number of bands, any order of summation. Overflow and nan are not modelled; the weights are representable, between 2^-b and 2^b, with 4b plus the precision below the exponent of the least number. |
| C127 | Pixels that are nan or infinite spoil only themselves | The sums, products, quotients and medians of these functions on values that are numbers, infinities or nan (Nan_model), written like the code; the finite values are exact. A pixel of a sum is finite exactly when every term is, because a finite weight times a non-finite pixel is non-finite; where it is finite it follows the exact models Detect_model, Lexp_model and Lmdet_model on the cleaned data (simulation). | proved: The finite values are exact rationals. A band may have nan weights but no weight of +infinity in the first three theorems. |
| C128 | Rows and columns are treated alike | Transposition as a function on images, catalogues, positions and jacobians (Turn_spec), and simulation proofs over the existing models: pixels of a transposed image are a permutation, so medians, sums and tests over all pixels agree; pixelwise steps commute with transposition; the shear matrix of (-g1, g2) is that of (g1, g2) with its corners exchanged. The quarter turn of symmetrize=True is refuted with one bright object in the corner of a 2 by 2 image. | partial: REFUTED for bright object masks with symmetrize=True (C128_symmetrized_refuted); the theorems cover the rest. The weight function of an object and the interpolator are assumed to treat the coordinates alike; the jacobian of the turned image has rows and columns and the two sky directions exchanged. Interpolation with noise filling and the interpolation method of masking are not covered. |
| C129 | The viewers show what they are given, where they say | Each viewer is a function to the list of calls it makes on matplotlib, with panels as pairs of row and column and the arrays of compare_mbexp in a heap (Vis_model). A figure is specified by what each panel shows, its title and its marks (Vis_spec). Proofs enumerate the events; the heap lemma is by induction over the bands, with the copies in new cells. The two broken viewers are refuted for all their inputs. | partial: REFUTED for show_multi_mbobs unless there are exactly three bands (rows and columns of its panels are swapped, so it raises) and for show_mbexp_demo (it uses a name that is not defined); proved for all other viewers. What matplotlib, AsinhMapping, img_to_rgb and the ds9 display do with their arguments is not modelled. |
| C130 | More masking in never gives less masking out | Two inputs are related pixel by pixel (Mono_spec: more bits, larger fractions, the rest equal), and each modelled step is shown to take related inputs to related outputs with the same exceptions: by induction over the bands for the folds, by the positivity of the weights for the fractions, and through the pixel specifications of C19 and C66 for the bright objects. The LSST run is composed from its steps. The lost interpolation bit is a counterexample on a 3 by 3 image | partial: REFUTED in one place: an object that covers the whole image takes the interpolation bit away (C130_bright_interp_refuted; C130_bright_interp proves the claim for all other bits, and for all bits while some pixel is left). The rest is proved as stated. |
| C131 | The shape of an object depends on its stamps in the shear bands only | Two lists of stamps that agree in the shear bands and may differ elsewhere (Onlyb_spec). For the moments fits the sums over bands are folds that skip the other bands, so the object, PSF and shape columns agree while band fluxes agree in the shear bands only; for the joint fits the coadd and the list of stamps are built from the shear bands, and the proof needs both runs to attempt the fit; the remaining case is refuted by a concrete pair (Onlyb). | partial: REFUTED in the last sentence: the joint fitters do not attempt an object whose stamp in another band is missing, unweighted or has a forbidden bit. The first band's jacobian and PSF image size count for all bands. Runners are deterministic functions of the stamps they are given. |
| C132 | The tables of a result have the same, distinct, documented columns, and each cell shows the right quantity | A second model of the driver in which tables are lists of named columns, built field by field, combined by name, extended and stacked with dtype checks as numpy does (Mtab_model). It is related to the row model of C88 by a simulation over the state monad: same exceptions, same state, and tables that show the rows (Mtab_spec). Names: the prefixes form a small grammar, and a prefix and a quantity can be read back from a column name. | proved: Assumes that metacal keeps the number of bands and that the coloured observations have as many bands as the main ones (otherwise stacking is a TypeError). With one band the code's band columns are scalars, in the model lists of length one. What the values are is C88. |
| C133 | Values without flags are numbers | Case analysis of the three fitting routines (Wavg_model, Joint_model): under the assumption that unflagged third party results are numbers, each column is a number where its flag column is 0. Sums over bands by induction (a defined flux moment means that every summed flux was defined; a PSF sum without flags has positive weight and size), band columns by induction over the assignments; lifted to the named columns of the tables through the simulation of C132 (Clean). | proved: Assumes that the unflagged results of ngmix are numbers, that an unflagged PSF has a positive size and that its joint fit is not run without stamps. The stronger claim that flags 0 means that all columns are numbers is refuted for the joint fitters (C133_summary_refuted): the Gaussian fit has no fluxes in bands outside the shear bands and adaptive moments measure no fluxes at all (C133_admom_fluxes). |
| C134 | Values without flags are numbers in the LSST tables | run_metadetect and run_photometry with the fitters of fitting.py in place of the open fits (Lown_model); every row of C87 and C86 is either an object without a stamp, whose flags are all NO_ATTEMPT, or has the cells of the two fits, to which the lemmas of C133 apply (Lown). | proved: Assumes of ngmix what C133 does. Two stronger claims are refuted: the pgauss table has no PSF flags, so pgauss_T_ratio can be nan where pgauss_T_flags is 0 (C134_ratio_refuted; pgauss_obj_flags then has PSF_FAILURE), and without gauss_flags the fluxes of the bands outside the shear bands are nan (C134_fluxes_refuted). |
| C135 | Where the flags in the LSST tables come from | As C134, with the lemmas of C115 for the flags of the two fits; these are proved for any stamps with a constant positive weight, which the stamps minus the models of other sources still have (Lown, Lfit). | proved: The images of a shear type are those of C87. The causes of the averaged moments (moment_cause) are stated under the conditions of C115. |
| C136 | The detection runs with the settings asked for, for every shear type | Dictionaries as objects in a heap; one detection copies, converts and pops as the code does and then runs the detection package, an arbitrary function that may also change its settings. Induction over the shear types with the invariant that all earlier objects are kept (Medsio). | proved: Extends C92 to the detections of a whole run and to detection packages that change the dictionary they are given. The user's dictionary is copied one level deep; values inside it that can themselves be changed in place are shared, and run_sep is taken to change only the dictionary it is given. Without sx the package's own dictionary is handed over itself: that every shear type sees the same settings then needs the proviso that the package leaves it alone (C136_default; C136_default_refuted shows the proviso is needed). |
| C137 | Stamps are the caller's own arrays | Arrays as objects in a heap; a request allocates and fills as the code does. Induction over histories of requests and in-place changes with the invariant that the arrays given out are apart from the data; the contents are those of the pure get_cutout (Medsio). | proved: The pixels of a stamp are those of C08 (get_cutout of Detect_model.v); here the arrays are objects in memory. A user changes only arrays they were given. |
| C138 | Moving the sky by whole pixels moves the objects and changes no fit | From the description of rows in C88: the entry of a moved object has the same place in its stamp, its stamp holds the same pixels, hence the reader returns the same stamps and the fits are functions of them; for whole runs via the theorem of C88 (Mmove). | proved: Assumes that the stamp reader (ngmix, third party) uses the position in the stamp, not the position in the image. Exact positions: the code stores them in single precision, so the position in the stamp can differ in its last digits (C117). Stamps that reach over an edge are excluded: at a low edge they are shifted (C11), at a high edge filled (C08). The unsheared position, mask and masked fraction columns are not part of the claim: unshearing is about the centre of the image. |
| C139 | do_metadetect returns a result on valid input, whatever the pixels | Totality of every step of the run, from its parts: construction, metacal, detection, stamps, cut-outs, fits, weighted averages, masked fractions and the tables, each shown to return under what the previous one guarantees (Mtot); the one step that fails, the masked fraction at unsheared positions, by a whole run and, over the reals, by the unsheared row of an object in the last row of a large image (Mtotr). | partial: REFUTED: measure_mfrac at the unsheared position of an object raises a ValueError (shapes of the stamp and the image cut differ) when that position is half of a stamp or more above the last row or column; C139_returns_refuted runs the whole call, C139_large_image shows that the default step and stamps of 32 pixels suffice for images of 3600 to 9000 rows. Proved: the call returns whenever all unsheared positions stay within half of the smallest stamp of the image, with and without colours, for all pixels, masks, detections, bands and fitters. With colours the first fitter must be a weighted average. |
| C140 | One object never stops the LSST measurement | Every exception of making a stamp is one that the measurement handles, given wcs and PSF; the fits of the package return on every stamp (from the totality lemmas of C139); the columns can always be joined; induction over the catalogue (Ltot). | proved: The mask lookup of the whole run, which comes later and can fail, is not part of the measurement. |
| C141 | An LSST run returns for every image | Totality of each step: masks and masked fractions of one size; the mean PSF (positive weights); the metacal loops for exposures with wcs and PSF; the sheared exposures have the corner, size, PSF size and usable variances of the originals, so the coadd exists; then C140 and the mask lookup for each type; refuted by a computed run with a centroid a tenth of a pixel beyond the last column (Lrtot). | partial: REFUTED for objects with a centroid beyond the edge of the exposure: the lookup of the mask raises IndexError and the whole run is lost, even if the centroid is out by a tenth of a pixel. Proved when all objects are placed within the exposure, with the SDSS deblender; the scarlet deblender is C143. |
| C142 | LSST photometry returns for every image | The lemmas of C141 for one detection and the PSF fits, with the configuration read from the heap; refuted by the same kind of centroid (Lptot). | partial: REFUTED for objects with a centroid beyond the edge of the exposure: the lookup of the mask raises IndexError and the whole table is lost. Proved when all objects are placed within the exposure. |
| C143 | Measurement on scarlet models returns for every image | The subtractor only ever changes its current images, so every step of the loop is a state of the same shape: building and every add and subtract succeed when the footprints lie in the exposure; the stamps differ from those of the exposures in the images only, so that C140 applies to them. The run is C141 with this step (Lstot). | partial: Proved for the measurement. For the whole run proved when all objects are placed within the exposure; REFUTED otherwise: the lookup of the mask raises IndexError. One band always raises (C85_single_band_refuted). |

## Trusted base

A theorem of this development says something about /repo if all of these hold:

* Coq 8.16.1's kernel (`coqc`, rechecked by `coqchk`) is sound. Nothing is
  extracted and no plugin of our own is used. `vm_compute` is used in examples
  and in witnesses of refutations, so its reduction machine is trusted as part
  of the kernel; `native_compute` is not used.
* The model says what the code does. The code was read, not run: this sandbox
  has neither the dependencies nor a test run. Every definition cites its source
  lines and states its simplifications; what is left out is listed below.
* numpy, ngmix, galsim, sxdes, scipy and the LSST stack behave as described
  under "Assumptions about third party components".

No axiom, parameter, admitted proof, functor, module type or switched off check
is used. Coq's standard library is imported and, in the areas Fp and Fpe only, Flocq, for the
definitions of the floating point formats and of rounding; Flocq declares no axiom,
its theorems rest on the standard library's real numbers.

### Assumptions of each theorem (Print Assumptions)

The standard library's real numbers bring in `ClassicalDedekindReals.sig_forall_dec`,
`ClassicalDedekindReals.sig_not_dec` and `FunctionalExtensionality.functional_extensionality_dep`;
some lemmas about them also use `Classical_Prop.classic`. They appear only where
the code takes roots or compares distances (foreground masks, apodization),
for the shear algebra over the reals and for floating point rounding (Fp, Fpe). This list was produced by
`Print Assumptions` for every theorem named in MANIFEST.json:

* Closed under the global context (no axiom): the other 517 theorems of MANIFEST.json, that is all except those named below.
* `ClassicalDedekindReals.sig_forall_dec`, `FunctionalExtensionality.functional_extensionality_dep` (18 theorems): `C122_edge_valid`, `C128_bright_mask`, `C128_edge`, `C128_lsst_edge`, `C13_ends`, `C13_one_iff`, `C13_range`, `C14_edge_mask`, `C14_frame`, `C14_range`, `C14_symmetric`, `C15_edge_planes`, `C15_no_raise`, `C17_not_square_raises`, `C17_or_with_rotation`, `C17_square_only`, `C66_edge`, `C66_edge_where`.
* `ClassicalDedekindReals.sig_forall_dec`, `ClassicalDedekindReals.sig_not_dec`, `FunctionalExtensionality.functional_extensionality_dep` (51 theorems): `C04_known_types_return`, `C04_shear_unshear`, `C04_unshear_shear`, `C05_center_fixed`, `C05_center_only_fixed`, `C05_step_too_large`, `C05_unknown_type_raises`, `C05_unsheared_types_identity`, `C06_area_preserved`, `C06_observation`, `C06_opposite_is_inverse`, `C06_shear_direction`, `C122_catalogue_order`, `C122_either_order`, `C122_foreground_valid`, `C122_two_catalogues`, `C123_again`, `C123_either_order`, `C123_list_order`, `C123_ready`, `C123_two_lists`, `C128_bright`, `C128_lsst_bright`, `C128_sheared`, `C128_symmetrized_refuted`, `C128_unsheared`, `C130_bright_apodize`, `C130_bright_interp`, `C130_bright_interp_refuted`, `C130_bright_mask`, `C130_lsst_bright`, `C139_large_image`, `C139_setting_unshears`, `C16_union_of_discs`, `C18_agrees_with_mask`, `C18_more_objects_lower`, `C18_order_independent`, `C18_value`, `C19_apodize`, `C19_interp`, `C19_no_raise`, `C19_unknown_method`, `C20_expansion_monotone`, `C20_masked_is_expanded`, `C20_recorded`, `C66_bright`, `C66_bright_where`, `C66_errors`, `C90_bright`, `C90_edge`, `C90_stable`.
* `ClassicalDedekindReals.sig_forall_dec`, `ClassicalDedekindReals.sig_not_dec`, `Classical_Prop.classic`, `FunctionalExtensionality.functional_extensionality_dep` (31 theorems): `C117_cutout_position`, `C117_exact_catalogue`, `C117_pixel_in_stamp`, `C117_stored`, `C118_clipped`, `C118_close_partial`, `C118_index_partial`, `C118_inside_refuted`, `C118_own_pixel_partial`, `C119_band_mean`, `C119_fully_masked`, `C119_image_mean`, `C119_pixel_mean`, `C119_task_mean`, `C119_unmasked`, `C120_full_partial`, `C120_full_refuted`, `C126_coadd`, `C126_coadd_image`, `C126_coadd_weight`, `C126_detection`, `C126_detection_image`, `C126_exposures`, `C126_largest`, `C126_lsst_mfrac`, `C126_mfrac`, `C126_noise`, `C126_orders`, `C126_psf`, `C13_monotone`, `C13_strict`.

### Assumptions about third party components

Functions that are arguments of the model are arbitrary unless stated here. They
are functions: calling one twice with the same arguments gives the same value.
So the state of the random number generator that the code passes to metacal,
the PSF fits, the guessers and the noise is not part of the models, except in
the area Mrng (C94 to C98), where the driver of `metadetect.py` threads a
generator state of any type through the PSF fits, metacal and the joint fits,
and in the area Lrng (C100 to C102), where `run_metadetect` and
`run_photometry` thread one through the fits of the original PSFs and the
Gaussian fits of the objects. The Gaussian fit also stores PSF results in the
observations of the stamps, which the pgauss fit after it does not read.
C94 says for which configurations the other theorems about that driver hold for
every seed. Elsewhere a statement such as "the row depends only on its own
stamp" is about everything except that state. In Joint, Mrun and Mrng the
runners of the Gaussian fit are one function for all objects; the code makes
them from the first object of a list, Jrun (C103) says when this is the same.

* numpy: slices clip at both ends, an index that is not a slice may be negative
  (wraps) and raises IndexError otherwise; `digitize`, `rot90`, `median`, `where`,
  boolean assignment and in-place arithmetic act as documented. Images of one
  object have one shape unless a model says otherwise (Mrun: all images of a run
  have one shape; Lmask: the planes of an exposure have one shape).
* Integer types do not overflow; flags are unbounded integers with bit
  operations.
* ngmix: flag values of ngmix are non zero where they signal failures (`ng_ok`);
  `make_mom_result` is a function of the moments and their covariance that
  respects equality of rationals (`mk_ext`, `mk_size`, `mk_shape` are stated as
  hypotheses where used); runners and bootstrappers return a result or raise;
  `get_all_metacal` returns exactly the requested types, with as many bands and
  images of the same shape (`metacal_ok`); an observation from
  `NGMixMEDS.get_obslist` has the bit mask cutout as its bit mask (`reader_ok`);
  with the weight type "weight" it looks neither at the segmentation map nor at
  the object's number (`reader_weight`, only in C88_colour_same). The Gaussian
  weight of the masked fraction is a non negative function `W` of the offsets
  that respects equality of rationals (`weight_ok`).
* sxdes/sep: `run_sep` reports positions inside the image and finds nothing in an
  image of NaN (`sep_ok`).
* scipy: the Clough-Tocher interpolator is an arbitrary function of the good
  points and the requested points.
* galsim: drawing keeps the shape of the image (in Lmcal); profiles and their
  operations are arbitrary functions. Shears are given by their two components.
* LSST stack: `Box2I`, `Point2I`, `Exposure[bbox]`, `SourceCatalog.find`,
  `getPeaks`, `KernelPsf` (same image everywhere), `MultibandExposure.clone`
  (deep copy) and `Mask.addMaskPlane` are modelled after their documentation;
  rounding of positions to pixels is half up. `NoiseReplacer` is modelled after
  its documentation, without mask planes. Wcs, PSF drawing, detection,
  deblending, background estimation and centroids are arbitrary functions;
  scarlet's `Image.project`, `Box` and `Observation.convolve(mode="real")` are
  modelled after their documentation in Lheavy, with an arbitrary kernel;
  their errors are raised before they change anything. `pex_config` validation
  of values is not modelled; the detection configuration of the stack has the
  fields that are set (`stack_ok`). A centroid that is not a number is NaN in
  both coordinates; the PSF is then drawn at an arbitrary fixed position.
* matplotlib draws what it is told; `subplots` returns one axis, an array or a table of
  axes by the numbers of rows and columns, and a ValueError without any; `Grid` of espy
  has at least as many panels as asked for (hypothesis of C129_mosaic).
* Python: a `set` is iterated in an arbitrary fixed order; dictionaries keep
  insertion order; `logging` and printing have no effect.

### Code that is modelled

Generated from the citations in the comments of the model files; a function is listed when at least half of its lines are cited.

| file in /repo/metadetect | model file (without `_model.v`) | functions |
|---|---|---|
| detect.py | Medsio | MEDSInterface.__init__, MEDSInterface.has_psf, MEDSInterface.get_psf, MEDSifier._set_sx_config, MEDSifier._set_meds_config |
| detect.py | Medsio,Detect | MEDSInterface.get_cutout |
| detect.py | Mrun,Medsio | MEDSInterface._get_type_image, MEDSifier.__init__, MEDSifier.get_meds |
| detect.py | Detect | MEDSInterface._get_clipped_boxes, MEDSifier._get_box_sizes, MEDSifier._get_sigma_size |
| detect.py | Mrun | MEDSifier.get_multiband_meds, CatalogMEDSifier.__init__ |
| detect.py | Nan,Medsio | MEDSifier._get_image_vars |
| detect.py | Mrun,Detect | MEDSifier._set_detim, MEDSifier._run_sep, CatalogMEDSifier._set_cat_and_seg |
| fitting.py | Jrun,Joint | fit_mbobs_gauss |
| fitting.py | Joint,Mtab | _extract_g |
| fitting.py | Mtab,Mdet | get_gauss_psf_runner, get_gauss_obj_runner, _make_ml_prior, combine_fit_res |
| fitting.py | Mtab,Mrng | fit_mbobs_list_joint |
| fitting.py | Joint | get_admom_runner |
| fitting.py | Joint,Mrun | fit_mbobs_admom |
| fitting.py | Coadd,Nan | make_coadd_obs |
| fitting.py | Summ,Mrun | fit_all_psfs |
| fitting.py | Wavg,Mtab | fit_mbobs_list_wavg, get_wavg_output_struct, _make_combine_fit_results_wavg_dtype |
| fitting.py | Wavg,Mrng | fit_mbobs_wavg |
| fitting.py | Wavg | _fit_obslist, _fit_obs, _sum_bands_wavg, _make_mom_res |
| fitting.py | Wavg,Flags | _combine_fit_results_wavg |
| fitting.py | Wavg,Coadd | symmetrize_obs_weights |
| interpolate.py | Interp | _get_nearby_good_pixels, interpolate_image_at_mask |
| lsst/configs.py | Lutil | get_config, _verify_detect_config, _verify_pgauss_config, _check_required_keywords, _check_keywords |
| lsst/masking.py | Lmask,Lplane | apply_apodized_edge_masks_mbexp, apply_apodized_bright_masks_mbexp |
| lsst/mbobs_extractor.py | Lmeas | MBObsExtractor.__init__, MBObsExtractor.check_source_id, MBObsExtractor.get_stamp |
| lsst/mbobs_extractor.py | Lrest | MBObsExtractor.children, MBObsExtractor.child_ids, MBObsExtractor.add_source |
| lsst/mbobs_extractor.py | Lrest,Lmeas | MBObsExtractor.get_mbobs |
| lsst/measure.py | Lthr | SourceDetectionConfig.thresh, DetectAndDeblendConfig.setDefaults |
| lsst/measure.py | Lmeas,Ldeb | DetectAndDeblendTask.run |
| lsst/measure.py | Lmeas,Lrng | DetectAndDeblendTask._run_with_sdss |
| lsst/measure.py | Ldeb,Lmeas | DetectAndDeblendTask._run_with_scarlet |
| lsst/measure.py | Lthr,Lrng | get_detect_and_deblend_task |
| lsst/measure.py | Lscar,Lrng | measure |
| lsst/measure.py | Ldeb | _get_extractor |
| lsst/measure.py | Lrest,Lown | get_pgauss_fitter |
| lsst/measure.py | Lmeas | _get_combined_struct, get_bmasks, get_bmask, get_output_dtype, get_output_struct, get_output |
| lsst/metacal_exposures.py | Lmcal | get_metacal_mbexps_fixnoise, get_metacal_mbexps, get_metacal_exps_fixnoise, _get_metacal_exp, get_shear_from_type, _get_fitgauss_target_psf |
| lsst/metacal_exposures.py | Lmcal,Lrun | get_metacal_exps |
| lsst/metacal_exposures.py | Lrun | get_galsim_jacobian_wcs, get_psf_kernel_image |
| lsst/metadetect.py | Lrun,Lrng | run_metadetect, MetadetectTask.__init__, MetadetectTask.run, detect_deblend_and_measure |
| lsst/metadetect.py | Lthr | MetacalConfig.validate |
| lsst/metadetect.py | Lmdet | add_mfrac, measure_weighted_mfrac, add_ormask, add_original_psf, combine_ormasks, get_mfrac_mbexp |
| lsst/metadetect.py | Lmdet,Lrng | fit_original_psfs_mbexp |
| lsst/model_subtractor.py | Lsub | ModelSubtractor.__init__, ModelSubtractor.children, ModelSubtractor.child_ids, ModelSubtractor.check_source_id, ModelSubtractor._add_or_subtract_source, ModelSubtractor.get_stamp, ModelSubtractor.get_model, ModelSubtractor.get_full_model, ModelSubtractor.get_bbox |
| lsst/model_subtractor.py | Lsub,Lscar | ModelSubtractor.add_source |
| lsst/model_subtractor.py | Lscar,Lsub | ModelSubtractor.get_mbobs |
| lsst/model_subtractor.py | Lsub,Lheavy | ModelSubtractor._build_subtracted_image, scarletModelToHeavy |
| lsst/photometry.py | Lrng,Lphot | run_photometry |
| lsst/skysub.py | Lthr | IterateDetectionSkySubConfig.setDefaults, SubtractSkyMbExpConfig.setDefaults, subtract_sky_mbexp |
| lsst/skysub.py | Lsky,Lphot | IterateDetectionSkySubTask.run |
| lsst/skysub.py | Lsky | SubtractSkyMbExpTask.run, determine_and_subtract_sky |
| lsst/skysub.py | Lthr,Lsky | iterate_detection_and_skysub |
| lsst/util.py | Lnoise | ContextNoiseReplacer.__init__, ContextNoiseReplacer.sourceInserted, ContextNoiseReplacer.insertSource, ContextNoiseReplacer.removeSource, ContextNoiseReplacer.end, ContextNoiseReplacer.__enter__, ContextNoiseReplacer.__exit__, MultibandNoiseReplacer.__init__, MultibandNoiseReplacer.sourceInserted, MultibandNoiseReplacer.insertSource, MultibandNoiseReplacer.removeSource, MultibandNoiseReplacer.end, MultibandNoiseReplacer._set_noise_replacers, MultibandNoiseReplacer.__enter__, MultibandNoiseReplacer.__exit__, get_noise_image |
| lsst/util.py | Lrest | get_stamp_mbobs, _extract_jacobian_at_source, get_fitter |
| lsst/util.py | Lutil | get_bbox, trim_odd_image, override_config |
| lsst/util.py | Lmcal,Ldeb | get_mbexp |
| lsst/util.py | Lscar | copy_mbexp, try_clone_psf |
| lsst/util.py | Lexp | coadd_exposures, coadd_mbobs, obs2exp, exp2obs, get_jacobian, get_integer_center, extract_multiband_coadd_data, extract_psf_image, _extract_weight |
| lsst/util.py | Lrun | get_stack_kernel_psf |
| lsst/util.py | Lthr,Lplane | get_stats_mask, get_detection_mask |
| lsst/util.py | Lfit,Lexp | extract_obs |
| lsst/util.py | Ldeb,Lexp | make_deconvolved_mbexp |
| lsst/util.py | Lutil,Lphot | extract_shear_band_indices |
| lsst/vis.py | Vis | show_exp, show_mbexp, show_mbexp_mosaic, _extract_xy, compare_mbexp, show_three_mbexp, show_mbexp_demo, show_multi_mbobs, show_mbexp_each_band, show_image_and_mask, show_image |
| masking.py | Masking | get_ap_range, apply_apodization_corrections, _build_square_apodization_mask, apply_foreground_masking_corrections, _apply_mask_interp, _apply_mask_apodize, make_foreground_bmask, make_foreground_apodization_mask, _intersects, _ap_kern_kern, _do_apodization_mask, _do_mask_foreground |
| metadetect.py | Mtab,Mrun | do_metadetect |
| metadetect.py | Mrun,Conf | Metadetect.__init__ |
| metadetect.py | Conf | Metadetect._set_config |
| metadetect.py | Summ | Metadetect._get_ormask_and_bmask, _fill_in_mask_col |
| metadetect.py | Summ,Fp | Metadetect._get_mfrac, _clip_and_round |
| metadetect.py | Conf,Mrun | Metadetect._set_fitter |
| metadetect.py | Mdet | Metadetect.result |
| metadetect.py | Mtab,Mrng | Metadetect.go, Metadetect._go_bands, Metadetect._go_bands_with_color, Metadetect._measure |
| metadetect.py | Mrng,Mdet | Metadetect._get_mbobs_data |
| metadetect.py | Mtab,Mdet | Metadetect._add_positions_and_psf |
| metadetect.py | Mdet,Mrun | Metadetect._do_detect |
| metadetect.py | Mdet,Mrng | Metadetect._get_all_metacal |
| metadetect.py | Summ,Fpe | _get_psf_stats |
| mfrac.py | Detect,Fp | measure_mfrac |
| procflags.py | Flags | get_procflags_str |
| shearpos.py | Shearpos | shear_positions_obs, shear_positions, unshear_positions_obs, unshear_positions, get_galsim_shear |
| util.py | Naming | Namer.__init__, Namer.__call__ |

### Code that is not modelled

* The ds9 branch of `show_exp`, sizes and styles of figures, `_version.py`, the scripts, the examples and
  all tests (including `shear_meas_test`).
* Logging, timing, `print`, and the text of exceptions (their classes are
  modelled).
* numba compilation: `@njit` functions are read as the Python they contain.
* The numerical content of third party code: see the section above.
* Floating point rounding and the dtype of columns, except in C59_float_refuted,
  C114 (widths of integer columns) and C117 to C120; floating point overflow and
  nan, except where a model has them as values. Elsewhere a column is a value per row, not a numpy dtype.
* The random number generator, except in Mrng (C94 to C98)
  and Lrng (C100 to C102); its values there are
  arbitrary.

Functions with fewer than half of their lines cited: fitting.py: get_coellip_ngauss; lsst/measure.py: DetectAndDeblendTask.__init__; lsst/metadetect.py: MetadetectConfig.setDefaults; lsst/metadetect.py: MetadetectConfig.validate; lsst/skysub.py: IterateDetectionSkySubTask.__init__; lsst/skysub.py: SubtractSkyMbExpTask.__init__; lsst/util.py: get_noise_replacer; lsst/util.py: _extract_psf_image_fix; lsst/util.py: AllZeroWeightError.__init__; lsst/util.py: AllZeroWeightError.__str__; lsst/util.py: MissingDataError.__init__; lsst/util.py: MissingDataError.__str__.

## Findings

What the models say about the code, found while proving. Theorems in brackets.

Shear bands:

* The joint fits (gauss, admom) look at the stamps of all bands before they fit, so an
  unusable stamp in a band that is not a shear band removes the shape of the object; the
  moments fits do not do this [C131_joint_refuted, C131_moments].

Masks:

* With the methods `interp` and `interp-noise`, an image that bright objects cover
  completely gets the bright object bit but not the interpolation bit, so adding an
  object to the catalogue can remove a bit from pixels [C130_bright_interp_refuted].

Viewers (`lsst/vis.py`):

* `show_multi_mbobs` makes a grid of types by bands but indexes it band by type: it
  raises unless there are exactly three bands [C129_mbobs_refuted].
* `show_mbexp_demo` loops over `Qvals`, which is not defined (`qvals` is): it always
  raises [C129_demo_refuted].

Configuration and driver (`metadetect.py`):

* Shear and detection band lists of different lengths are accepted; the surplus
  combinations are dropped by `zip` [C29_missing_refuted].
* An empty list of fitters is accepted and fails later [C34_empty_fitters_refuted];
  missing "meds" entries only fail at detection.
* The same fitter twice, "am" next to "admom", or two regularisations equal to two
  decimals share a column prefix and raise ValueError at run time.
* `fwhm_reg` with a joint model is an AttributeError [C34_errors]; `wmom` ignores
  `fwhm_smooth`.
* The dictionary of the caller is filled in by construction
  [C67_config_unchanged_refuted].
* After an exception that is not a PSF failure the metacal cache keeps an entry
  without results, so that a second `go()` can succeed where the first raised
  [C31_failure_refuted, C31_go_refuted].
* In the colour path detections are dropped when metacal failed for their colour
  [C33_dropped_refuted]; stamps there carry no segmentation map and number.
* Stamps near the low image edges are moved into the image instead of being
  padded: no edge flag, and the object is off the middle
  [C11_low_edge_centred_refuted, C89_centred_refuted].
* All bands use the jacobian and PSF centre of the first band for their stamps.

Fits (`fitting.py`):

* Failed fits of single bands are logged, not flagged, by the weighted average
  [C35_fit_success_refuted]; a shear band that does not exist is ignored by it and
  by adaptive moments with one band [C39_missing_shear_band_refuted,
  C39_admom_one_band_refuted]; for the Gaussian fitter a negative index counts
  from the end.
* Adaptive moments never fill the band_flux columns.
* The list fitter for "gauss" makes its prior from the first stamp of the first
  object for all objects; with two pixel scales or different numbers of bands the
  rows depend on which object is first [C103_two_scales_refuted,
  C103_band_counts_refuted].
* Labels of band lists collide, [12] and [1, 2] [C40_label_refuted].
* `combine_fit_res([])` is a TypeError. Symmetrizing keeps an isolated negative
  weight.

LSST (`lsst/`):

* The masked fraction is read with x and y swapped [C57_wrong_place_refuted]; the
  documented default `mfrac_mbexp=None` always raises [C75_no_mfrac_refuted].
* A failing PSF fit raises instead of flagging [C58_refuted].
* A centroid left of or below the image reads the mask on the opposite side
  [C56_outside_refuted]; bmask rows belong to other sources when parents are in
  the catalogue [C61_bmask_refuted].
* No coadd: a pair is unpacked as a triple [C62_refuted].
* A source without centroid has NaN ra and dec [C77_sky_refuted].
* `get_stamp` of the extractor always raises [C79_get_stamp_refuted].
* The override of `stamp_size` is silently ignored [C50_stamp_size_refuted,
  C87_stamp_size_refuted]; detection options other than the threshold are ignored
  by run_metadetect, a threshold of 0 becomes 5 [C65_zero_refuted,
  C65_other_options_refuted]; photometry ignores the deblender
  [C73_photometry_refuted].
* The names of shear bands select bands in the order of the data
  [C51_order_refuted].
* ModelSubtractor: not exact in 32 bit floats [C59_float_refuted]; one band always
  raises [C81_single_band_refuted, C85_single_band_refuted]; a band without model
  leaves earlier bands changed [C59_band_mismatch_refuted]; without stamp size
  always TypeError [C80_no_size_refuted].
* Noise replacement: a constructor that fails leaves earlier bands as noise, a
  catalogue of children only is not restored, nested blocks show noise
  [C60_constructor_refuted, C60_children_refuted, C60_nested_refuted]. The
  docstring's `with replacer.insertSource` is not a context manager.
* Sky subtraction: after an error the recorded level is that of the last
  background only [C64_failed_level_refuted]; a re-estimate is not recorded
  [C64_reestimate_refuted].
* Metacal: noise with fewer bands is silently truncated; repeated types add the
  noise twice in the single exposure function [C63_missing_band_refuted,
  C63_repeated_refuted].
* Coadds of exposures divide pixels that are bad in one band by the weight of all
  bands, and evaluate PSFs without the corner of the box [C55_bad_band_refuted,
  C55_psf_position_refuted].
* With one band run_photometry changes the mask of the caller's exposure; a
  missing shear band raises only after the sky was subtracted from the caller's
  exposures [C86_one_band_refuted, C86_failed_changes_refuted].
* The masked fraction at the unsheared position raises a ValueError when that
  position is half of a stamp or more above the image: do_metadetect can stop at one
  object in the last rows of a large image [C139_returns_refuted,
  C139_large_image].
* run_metadetect (LSST) stops with an IndexError, and loses all objects, when the
  centroid of one object lies beyond the last row or column of the exposure, if
  only by a tenth of a pixel [C141_centroid_refuted]. The same happens in
  run_photometry and with the scarlet deblender [C142_centroid_refuted,
  C143_centroid_refuted].
* The size of the mfrac box is in pixels, computed from a sigma in arcsec; the
  option 'mfrac_fwhm' cannot be set. More mfrac maps than bands are truncated.
* scarletModelToHeavy keeps a pixel when the maximum over the bands is not zero, so
  a model negative in one band and zero in another is dropped
  [C105_negative_refuted]; sources are cut at the observation before they are
  convolved [C105_cut_refuted]; light outside of the blend's or the catalogue's box
  is not subtracted [C106_wings_refuted, C106_catalogue_box_refuted].
* scarlet: `updateCatalogFootprints` is always called with band 'i', so that a run
  in other bands raises when anything is detected [C99_without_i].
* The tables of different metacal types share one generator: Gaussian fits of a
  type depend on the types before it [C101_shared_generator_refuted].

Floating point:

* LSST positions are stored in single precision before the mask lookup: an object
  within the storage error of a pixel edge gets the neighbour's mask value, and at
  the upper edge of the exposure the run stops with an IndexError
  [C118_inside_refuted].
* The LSST band average of the masked fraction multiplies by a rounded reciprocal:
  a pixel masked in every band can get the number below 1 [C120_full_refuted].

