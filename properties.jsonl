{"id": "C01", "title": "Slices tile the coadd exactly", "statement": "When build_slice_locations(central_size, buffer_size, image_width) returns, every pixel (row, col) with buffer_size <= row, col < image_width - buffer_size lies in the central region of exactly one returned slice, no central region contains any other pixel, and the slices are returned in row-major order.", "quantifier": "all positive central sizes, all non-negative buffer sizes, all image widths, all pixels (sizes up to 2**51, in IEEE double arithmetic)", "why_tests_cant": "Exact coverage must hold at every pixel of every geometry; a test only looks at one geometry.", "anchors": ["pizza_cutter/slice_utils/locate.py:build_slice_locations"]}
{"id": "C02", "title": "Slice stamps stay inside the coadd", "statement": "Every slice returned by build_slice_locations has a start_row/start_col >= 0 and its full stamp of width central_size + 2*buffer_size ends at or before image_width, and row/col is the centre of that stamp.", "quantifier": "all positive central sizes, non-negative buffers and widths, all returned slices (sizes up to 2**51, in IEEE double arithmetic)", "why_tests_cant": "A stamp that hangs off the tile for one geometry silently yields truncated arrays; all geometries must be covered.", "anchors": ["pizza_cutter/slice_utils/locate.py:build_slice_locations"]}
{"id": "C03", "title": "Inexact tilings are rejected", "statement": "build_slice_locations raises ValueError if and only if image_width - 2*buffer_size is not a multiple of central_size, also when the test is evaluated in IEEE double arithmetic (sizes up to 2**51).", "quantifier": "all integers 0 < central_size, 0 <= buffer_size, 0 <= image_width up to 2**51", "why_tests_cant": "The divisibility test is done with floating point division; that it never accepts an inexact tiling needs a rounding argument over all integers.", "anchors": ["pizza_cutter/slice_utils/locate.py:build_slice_locations"]}
{"id": "C04", "title": "Weight symmetrization is exact and only removes weight", "statement": "symmetrize_weight(weight) without an angle sets pixel (i, j) of an n x n map to zero exactly when the pixel that a 90 degree rotation brings onto it, (j, n-1-i), has zero weight and is not in no_sym_mask; every other pixel keeps its value. Non-square maps raise ValueError and are unchanged. With an angle, pixels are only ever zeroed, and only where the rotated zero-weight map is positive.", "quantifier": "all sizes, all weight maps (including NaN and negative weights), all no_sym masks, all angles and all results of the image rotation routine", "why_tests_cant": "The claim quantifies over every map and every mask.", "anchors": ["pizza_cutter/slice_utils/symmetrize.py:symmetrize_weight"]}
{"id": "C05", "title": "Bit mask symmetrization is exact and monotone", "statement": "symmetrize_bmask without an angle turns pixel (i, j) into bmask(i,j) OR (bmask(j,n-1-i) AND sym_flags), where pixels in no_sym_mask contribute nothing; with an angle each bit below 32 selected by sym_flags is added exactly where the rotated mask of that bit is positive. In both modes no bit is ever cleared and no bit outside sym_flags is ever added.", "quantifier": "all sizes, all bit masks, all no_sym masks, all sym_flags, all angles and rotation results", "why_tests_cant": "Bit-level monotonicity must hold for every mask, bit and flag combination.", "anchors": ["pizza_cutter/slice_utils/symmetrize.py:symmetrize_bmask"]}
{"id": "C06", "title": "Masking becomes rotationally symmetric", "statement": "Applying symmetrize_bmask (no angle, no exclusions) three times makes the mask invariant under 90 degree rotation, each pixel being the OR over its four-fold orbit, and any further application changes nothing; a single application does not in general give a symmetric mask.", "quantifier": "all sizes and all bit masks", "why_tests_cant": "An orbit argument over all pixels of all sizes.", "anchors": ["pizza_cutter/slice_utils/symmetrize.py:symmetrize_bmask"]}
{"id": "C07", "title": "Fully masked edges are detected", "statement": "slice_full_edge_masked returns True if and only if one of the four edges has every weight <= 0 or every pixel flagged with bad_flags. It is therefore not the same as 'every pixel of some edge is unusable': an edge made unusable by a mixture of zero weights and flags is not reported.", "quantifier": "all shapes with at least one row and column, all weights (with NaN), all masks and flags", "why_tests_cant": "Quantifies over every weight map and mask; tests use a handful of patterns and miss the mixed edge.", "anchors": ["pizza_cutter/slice_utils/flag.py:slice_full_edge_masked", "pizza_cutter/slice_utils/flag.py:slice_has_flags"]}
{"id": "C08", "title": "Masked fraction is a correct fraction", "statement": "compute_masked_fraction is the number of unusable pixels (weight <= 0 or flagged) outside ignore_mask divided by the number of pixels outside ignore_mask; it lies in [0, 1], is 0 iff no counted pixel is unusable, 1 iff all are, grows with bad_flags, does not depend on the contents of ignored pixels, and is 1.0 if everything is ignored.", "quantifier": "all non-empty shapes, weights, masks, flags and ignore masks", "why_tests_cant": "Bounds, monotonicity and non-interference hold over all inputs.", "anchors": ["pizza_cutter/slice_utils/flag.py:compute_masked_fraction"]}
{"id": "C09", "title": "Interpolation neighbours are exactly the nearby good pixels", "statement": "For every bad-pixel mask the pixels used as interpolation support are exactly the good pixels within Chebyshev distance buff of some bad pixel, the interpolated pixels are exactly the bad pixels in row-major order, and a bad pixel is called isolated exactly when no good pixel lies within iso_buff of it.", "quantifier": "all shapes, masks, buff and iso_buff", "why_tests_cant": "Window clipping at the borders must be right for every position and every buffer.", "anchors": ["pizza_cutter/slice_utils/interpolate.py:_get_nearby_good_pixels"]}
{"id": "C10", "title": "The good-pixel work array never overflows", "statement": "Given the true number of bad pixels, the search for good neighbours never writes outside its preallocated arrays and never raises 'good_pix too small'.", "quantifier": "all shapes, masks, buff >= 0 and iso_buff", "why_tests_cant": "Memory safety of compiled (unchecked) code for every mask needs a counting argument.", "anchors": ["pizza_cutter/slice_utils/interpolate.py:_get_nearby_good_pixels"]}
{"id": "C11", "title": "Interpolation never touches good pixels", "statement": "interpolate_image_at_mask and interpolate_image_and_noise return images (and noise fields) which agree with the input at every good pixel, and whose value at every bad pixel is the interpolant at that pixel (or the drawn noise for isolated pixels); image and noise fields are changed at the same pixels.", "quantifier": "all images, masks, interpolants, random draws and options", "why_tests_cant": "Must hold for every mask pattern and every interpolant.", "anchors": ["pizza_cutter/slice_utils/interpolate.py:interpolate_image_at_mask", "pizza_cutter/slice_utils/interpolate.py:interpolate_image_and_noise", "pizza_cutter/slice_utils/interpolate.py:_interp_one"]}
{"id": "C12", "title": "Interpolation ignores the values of bad pixels", "statement": "The result of interpolation does not depend on the input values at bad pixels: two images which agree on all good pixels give the same result.", "quantifier": "all pairs of images agreeing on good pixels, all masks, interpolants, random streams", "why_tests_cant": "A two-run (non-interference) property; no test can enumerate pairs of inputs.", "anchors": ["pizza_cutter/slice_utils/interpolate.py:interpolate_image_at_mask", "pizza_cutter/slice_utils/interpolate.py:interpolate_image_and_noise"]}
{"id": "C13", "title": "Interpolation refuses exactly the hopeless images", "statement": "interpolate_image_at_mask returns None iff the bad fraction exceeds maxfrac or every pixel is bad; interpolate_image_and_noise returns (None, None) in exactly that case (provided some pixel is bad), and fresh copies when nothing is bad. With fill_isolated_with_noise=True and bad but no isolated pixels, interpolate_image_and_noise fails with UnboundLocalError instead of returning.", "quantifier": "all images, masks, maxfrac and options", "why_tests_cant": "Complete characterisation of the refusing inputs.", "anchors": ["pizza_cutter/slice_utils/interpolate.py:interpolate_image_at_mask", "pizza_cutter/slice_utils/interpolate.py:interpolate_image_and_noise"]}
{"id": "C14", "title": "Masked-edge copying is consistent", "statement": "copy_masked_edges_image_and_noise replaces a pixel p only if p lies on an edge row or column all of whose pixels are unusable and the pixel q next to p towards the interior is usable; then the image, every noise field, the bit mask and the weight at p are all the input values at q. All other pixels are unchanged in all outputs.", "quantifier": "all shapes with at least two rows and columns, all images, noises, weights, masks, flags", "why_tests_cant": "The four edge passes share mutable arrays; that they never interfere is an all-inputs argument.", "anchors": ["pizza_cutter/slice_utils/interpolate.py:copy_masked_edges_image_and_noise"]}
{"id": "C15", "title": "RA differences are wrapped correctly", "statement": "wrap_ra_diff of a finite value terminates in exact arithmetic with a result in [-180, 180] which differs from the input by a multiple of 360, leaves values already in range and non-finite values unchanged, and acts element by element on arrays. In IEEE double arithmetic it terminates exactly for finite inputs of magnitude at most 2**62 (it loops for ever above), always lands in [-180, 180], and makes no rounding error up to 2**56.", "quantifier": "all real inputs, all finite doubles and all arrays; all step counts for the divergence", "why_tests_cant": "Termination and range for all inputs; non-termination for one needs a proof about all step counts.", "anchors": ["pizza_cutter/wcs.py:wrap_ra_diff"]}
{"id": "C16", "title": "WCS Jacobian is immune to the RA branch cut", "statement": "FastHashingWCS.get_jacobian gives the same answer whichever multiple of 360 degrees is added to each right ascension returned by the WCS, provided the true RA difference over one step is below 180 degrees, and is exact for maps that are locally affine. In double arithmetic, with a WCS that is right to eps degrees up to whole turns, it is that of the true differences up to 4000 (eps + 2^-42) / step arcseconds per pixel. The residual that is minimised when the WCS is inverted ignores the turns too, and vanishes on the wanted position (in double arithmetic: only within 2^-42 degrees of it).", "quantifier": "all sky maps, all positions, all integer branch choices, all steps (from 2^-20 to 2^20 pixels in double arithmetic)", "why_tests_cant": "Ranges over all WCS functions and branch choices.", "anchors": ["pizza_cutter/wcs.py:FastHashingWCS.get_jacobian"]}
{"id": "C17", "title": "The affine WCS round-trips", "statement": "AffineWCS raises ValueError iff its matrix is singular; otherwise image2sky is the affine map of its parameters, sky2image(image2sky(p)) = p and image2sky(sky2image(q)) = q, (x0, y0) maps to (0, 0), and get_jacobian returns the true partial derivatives everywhere. In double arithmetic every singular matrix is still rejected, and so are exactly those matrices whose two products round to the same double. Under a bound on the condition number the object is made, image2sky is the affine map up to rounding, and sky2image undoes it up to a rounding error proportional to the condition number.", "quantifier": "all real coefficients and all points in exact arithmetic; all matrices of condition number at most 2^20 and positions up to 2^30 in double arithmetic", "why_tests_cant": "Algebraic identities over all reals.", "anchors": ["pizza_cutter/des_pizza_cutter/_affine_wcs.py:AffineWCS"]}
{"id": "C18", "title": "Rough sky bounds contain the CCD", "statement": "For an affine WCS get_rough_sky_bounds returns exactly the bounding box of the sky positions of the pixel centres, padded by the buffer, so ccd_contains_radec accepts every position on the image as soon as the buffer is at least as wide as the distance of the position from the pixel centres (half a pixel at the outer edge). For any WCS, celestial or not, the four corner pixels are accepted. Without buffer the outer half of the border pixels is rejected. In double arithmetic the bounds exist and accept every position on the image as soon as the buffer exceeds that distance by 2^-47 * M * P, M bounding the matrix elements and P the positions.", "quantifier": "all image shapes, all invertible affine maps, all buffers and grid sizes, all positions on the CCD", "why_tests_cant": "A convexity argument over infinitely many positions and maps.", "anchors": ["pizza_cutter/des_pizza_cutter/_sky_bounds.py:get_rough_sky_bounds", "pizza_cutter/des_pizza_cutter/_se_image.py:SEImageSlice.ccd_contains_radec"]}
{"id": "C19", "title": "The sinc approximant is well defined and accurate", "statement": "sinc_pade is defined (its denominator is positive) for every real argument, is even, has on [-3, 3] exactly the zeros 1, 2, 3 and their opposites (also in double arithmetic), is positive on (-1, 1), and equals 1 - 4e-15 at 0, not exactly 1 as documented. On [-3, 3] it differs from sin(pi x)/(pi x) by at most 1.05e-6, so the Lanczos kernel built from it differs from the true one by at most 2.2e-6, within the documented 1.03019e-05. Computed in double arithmetic both stay finite and within 1.0501e-6 and 2.201e-6 for every double in the range.", "quantifier": "all real arguments", "why_tests_cant": "No pole anywhere on the real line is a statement about uncountably many inputs.", "anchors": ["pizza_cutter/coadding/_sinc.py:sinc_pade"]}
{"id": "C20", "title": "Lanczos resampling is linear and local", "statement": "lanczos_resample is linear in the image, reads only pixels of the image inside the 2a x 2a kernel window, is covariant under whole-pixel shifts of image and positions away from the borders, and reproduces the pixel values at integer positions up to the fixed kernel normalisation at 0. In double arithmetic, for finite pixels of size at most M in the window, the value is the exact kernel sum up to 2^-28 M (the sum with the true Lanczos kernel up to 1.8e-4 M), in whatever order the compiler (fastmath) multiplies the factors and adds the terms and however it computes the kernel values to within 2^-37; at integer positions it is the pixel value up to a relative 2^-45 whatever the finite neighbours are; an infinite neighbour makes it NaN.", "quantifier": "all images, positions, kernel sizes a <= 3, coefficients, shifts", "why_tests_cant": "Algebraic laws over all images and positions.", "anchors": ["pizza_cutter/coadding/_lanczos.py:lanczos_resample"]}
{"id": "C21", "title": "Lanczos edge flag means no support", "statement": "lanczos_resample sets edge for a point iff the kernel window does not meet the image at all, in which case the value is 0; points with a partly truncated kernel are not flagged (contrary to the docstring).", "quantifier": "all images, positions and kernel sizes", "why_tests_cant": "Exact boundary characterisation over all positions.", "anchors": ["pizza_cutter/coadding/_lanczos.py:lanczos_resample"]}
{"id": "C22", "title": "Resampling two images at once equals resampling each", "statement": "lanczos_resample_two(im1, im2, rows, cols, a) returns exactly the values and edge flags of lanczos_resample on each image, for equally shaped images and a <= 3. For a > 3 only lanczos_resample raises AssertionError.", "quantifier": "all pairs of images, positions, kernel sizes", "why_tests_cant": "Equality of two loops for all inputs, in any arithmetic.", "anchors": ["pizza_cutter/coadding/_lanczos.py:lanczos_resample_two"]}
{"id": "C23", "title": "Noise images are completely filled", "statement": "MemMappedNoiseImage gives every pixel its own normal draw (draws and pixels are in bijection), scaled by 1/sqrt(weight) of that pixel, or of fill_weight where weight <= 0, whatever the shape and chunk sizes; a chunk size of zero raises ZeroDivisionError. The per-epoch noise image has standard deviation scale/sqrt(weight), zero-weight pixels taking the largest weight, and raises ValueError iff no weight is positive. Computed on doubles and stored in single precision, each pixel is its draw times that standard deviation up to a relative error of 2^-23. With single precision weights, as read from the images, where also the quotients and the square root are single precision, up to 2^-21.", "quantifier": "all shapes, weights, chunk sizes sx, sy >= 0, all random streams; for the rounding, all doubles of moderate size", "why_tests_cant": "The chunk loop must cover every shape and every chunk size, including chunks that do not divide the image.", "anchors": ["pizza_cutter/memmappednoise.py:MemMappedNoiseImage.__init__"]}
{"id": "C24", "title": "Noise images are reproducible", "statement": "The noise image is a function of the first nx*ny draws of the seed, the weights inside the image, fill_weight and the chunk sizes; it does not depend on the chunk sizes while one chunk spans the width of the image (draws are then in row-major order), but does for narrower chunks.", "quantifier": "all seeds, weights, chunk sizes", "why_tests_cant": "Determinism over all inputs.", "anchors": ["pizza_cutter/memmappednoise.py:MemMappedNoiseImage.__init__", "pizza_cutter/des_pizza_cutter/_se_image.py:_get_noise_image_impl"]}
{"id": "C25", "title": "Staging out never loses new data", "statement": "At every crash point of StagedOutFile.stage_out, the file written by the user is present complete under its temporary path or under its final path; after a normal return it is at the final path only, and no other file is changed.", "quantifier": "all file systems, all paths, all crash points in the sequence of file operations", "why_tests_cant": "Crash points cannot be enumerated by a unit test.", "anchors": ["pizza_cutter/files.py:StagedOutFile"]}
{"id": "C26", "title": "Staging out is idempotent, and replaces the final file non-atomically", "statement": "Calling stage_out again after success changes nothing and does not fail; if the temporary file is missing it raises IOError when must_exist and otherwise leaves the final path alone. There is a crash point at which a previously existing final file has been removed and the new one is not yet in place.", "quantifier": "all file systems, paths, call histories and crash points", "why_tests_cant": "Histories and crash points.", "anchors": ["pizza_cutter/files.py:StagedOutFile.stage_out"]}
{"id": "C27", "title": "Staging in never alters or deletes the original", "statement": "StagedInFile never changes the original file and touches no path other than its temporary one, at any crash point of stage_in or cleanup and after any history of calls; after staging in, the temporary path holds a complete copy; cleanup removes it once and is then idle until the next staging in; with no tmpdir, or the file's own directory, nothing is ever copied or removed. A file somebody else put at the temporary path is removed, however.", "quantifier": "all file systems, temporary directories, call histories", "why_tests_cant": "Quantifies over histories and aliasing of paths.", "anchors": ["pizza_cutter/files.py:StagedInFile"]}
{"id": "C28", "title": "A successful run leaves its own output", "statement": "If make_des_pizza_slices returns normally without a tmpdir, the .fz file at meds_path was produced by this run's fpack and has been validated. With a tmpdir this fails: when fpack leaves no file and an older output exists at the final path, the run returns normally with the stale file validated. The uncompressed file is removed only if fpack succeeded, and an exception while writing is never swallowed.", "quantifier": "all file systems, all outcomes of fpack and of the file validator, tmpdir or not", "why_tests_cant": "Needs all combinations of failures and pre-existing files.", "anchors": ["pizza_cutter/des_pizza_cutter/_pizza_cutter.py:make_des_pizza_slices", "pizza_cutter/files.py:StagedOutFile"]}
{"id": "C29", "title": "Slice ranges are validated", "statement": "For slice_range None, 'start:end' strings and ranges with positive step, the call either raises or selects indices that are all in [0, num) in strictly increasing order: None selects all slices; 'a:b' (with any white space around the numbers) selects exactly a, ..., b-1 when 0 <= a and b <= num and raises ValueError otherwise; strings without exactly one colon raise AssertionError and parts that are no numbers raise ValueError. A range object selects its members as Python counts them, start, start+step, ... up to but not including stop, in either direction; one with more than sys.maxsize members raises OverflowError. Lists raise AttributeError, other objects ValueError. Ranges with a negative step can pass the validation with indices below 0 or beyond the end.", "quantifier": "all strings, ranges, lists and slice counts", "why_tests_cant": "All strings and ranges.", "anchors": ["pizza_cutter/des_pizza_cutter/_pizza_cutter.py:_extract_slice_range"]}
{"id": "C30", "title": "Work chunks partition the slices", "statement": "For n_chunks >= 1 the chunks handed to worker processes are n_chunks many, disjoint, none longer than the number of slices divided by n_chunks rounded up, and their concatenation is exactly the list of slices to do, with every slice paired with its own seed. n_chunks = 0 raises ZeroDivisionError and with n_chunks < 0 no slice is handed to any worker.", "quantifier": "all slice lists, seed lists and all n_chunks", "why_tests_cant": "Ceil-division chunking must be right for every pair of sizes.", "anchors": ["pizza_cutter/des_pizza_cutter/_pizza_cutter.py:_coadd_and_write_images"]}
{"id": "C31", "title": "Output does not depend on scheduling", "statement": "For every number of jobs (including serial), number of chunks >= 1, processing order, queue capacity and interleaving of the workers: if one way of doing the run completes, every other can complete and when it does the image extensions (names, sizes, every pixel) and object data are equal and epochs_info is the same up to the order of slices; if one raises, no other completes.", "quantifier": "all n_jobs, n_chunks, slice lists, worker interleavings, queue capacities and per-slice results", "why_tests_cant": "Schedules cannot be enumerated by tests.", "anchors": ["pizza_cutter/des_pizza_cutter/_pizza_cutter.py:_coadd_and_write_images", "pizza_cutter/des_pizza_cutter/_pizza_cutter.py:_process_slice_chunk", "pizza_cutter/des_pizza_cutter/_pizza_cutter.py:_process_results"]}
{"id": "C32", "title": "The parallel run never hangs", "statement": "With at least one worker, chunk and queue place: in every reachable state of the parallel run some process can make a step until the main process has either written all results or raised; every execution has at most 4n+2c+1 steps; the main process completes only if every slice was computed and written, and raises only if some slice failed or could not be written. Negative n_chunks, or a worker killed by the operating system, make the run hang.", "quantifier": "all schedules, all failing slices, all queue capacities >= 1", "why_tests_cant": "Deadlock freedom over all schedules.", "anchors": ["pizza_cutter/des_pizza_cutter/_pizza_cutter.py:_coadd_and_write_images", "pizza_cutter/des_pizza_cutter/_pizza_cutter.py:_process_slice_chunk"]}
{"id": "C33", "title": "A slice's result does not depend on which slices are run", "statement": "The seed used for slice i is the i-th draw from the run seed for every slice_range containing i, every processing order and number of jobs and chunks, and so are the seeds of the single-epoch images; hence the slice's object data and its part of every image extension are the same in any two runs that contain it.", "quantifier": "all run seeds, slice ranges, orders", "why_tests_cant": "Relates pairs of runs.", "anchors": ["pizza_cutter/des_pizza_cutter/_pizza_cutter.py:_coadd_and_write_images", "pizza_cutter/des_pizza_cutter/_pizza_cutter.py:_coadd_single_slice"]}
{"id": "C34", "title": "Cutouts never overlap in the output file", "statement": "After any set of slices has been written in any order, each slice's cutouts are exactly in its own region [i*npix,(i+1)*npix) of the reserved extensions, inside the reserved size; regions of different slices are disjoint; everything else, including regions of slices with no data, is zero as reserved; object data records the start rows and epoch counts.", "quantifier": "all numbers of slices, box sizes, psf box sizes, write orders", "why_tests_cant": "All pairs of slices.", "anchors": ["pizza_cutter/des_pizza_cutter/_pizza_cutter.py:_process_results", "pizza_cutter/des_pizza_cutter/_pizza_cutter.py:_reserve_images", "pizza_cutter/des_pizza_cutter/_pizza_cutter.py:_write_single_image"]}
{"id": "C35", "title": "Negative weights or masked fractions are never written", "statement": "Writing a cutout raises RuntimeError, writing nothing, if a weight or masked-fraction cutout has a negative entry, and otherwise writes exactly the data at the given offset and nothing else; after any sequence of writes the weight and masked-fraction extensions have no negative entry. (NaN is not negative and is written.)", "quantifier": "all images, extension names, offsets and sequences of writes", "why_tests_cant": "All inputs.", "anchors": ["pizza_cutter/des_pizza_cutter/_pizza_cutter.py:_write_single_image"]}
{"id": "C36", "title": "Epoch accounting is complete", "statement": "Every single-epoch image that can contribute to a slice is recorded in epochs_info exactly once, in input order within used and unused, used images with flags 0 and their weight, unused images with weight 0 and non-zero flags - except when the PSF model of every image is flagged bad, when nothing is recorded.", "quantifier": "all lists of single-epoch images and all outcomes of the per-image checks", "why_tests_cant": "Every combination of outcomes over lists of any length.", "anchors": ["pizza_cutter/des_pizza_cutter/_coadd_slices.py:_build_slice_inputs", "pizza_cutter/des_pizza_cutter/_pizza_cutter.py:_make_epochs_info"]}
{"id": "C37", "title": "Only acceptable images enter the coadd", "statement": "Every single-epoch image used for a slice has image_flags 0, contains the slice on its CCD, passed the PSF cut, has no pixel with bad_image_flags, no fully masked edge (before copying if edges are not copied, after it otherwise) and fractions of masked and of interpolated pixels below max_masked_fraction; each rejected image carries exactly the process flags of the checks it failed, and the selection never raises for arrays of at least 2x2 pixels with valid options.", "quantifier": "all lists of images, masks, weights, and configuration values", "why_tests_cant": "All combinations of inputs and options.", "anchors": ["pizza_cutter/des_pizza_cutter/_coadd_slices.py:_build_slice_inputs", "pizza_cutter/slice_utils/procflags.py"]}
{"id": "C38", "title": "Coadd weights are normalised", "statement": "The weights returned with the selected images are positive and sum to one, one weight per image, proportional to max(weight) (divided by fwhm**4 in 'noise-fwhm' mode, fwhm not zero); an unknown weighting type raises ValueError as soon as an image is good enough to be used. In double arithmetic, for weight maps and widths away from the limits of the range and n images, each weight is a double in (0, 1], within (n+9)*2**-52 relative of the exact one, and the weights sum to one within (n+1)*2**-52.", "quantifier": "all image lists and weight maps, exact arithmetic and doubles", "why_tests_cant": "All lists and values.", "anchors": ["pizza_cutter/des_pizza_cutter/_coadd_slices.py:_build_slice_inputs", "pizza_cutter/des_pizza_cutter/_coadd_slices.py:_build_coadd_weight"]}
{"id": "C39", "title": "The coadd is the weighted mean of its inputs", "statement": "Image, every noise field, psf and masked fraction of the coadd are the weighted sums of the resampled inputs, bmask/ormask are the bitwise ORs, the weight is one over the mean squared deviation of the first noise field from its mean; a constant input gives the same constant, masked fraction stays in [0, 1], and the result does not depend on the order of the inputs (exact arithmetic). In double arithmetic, for n inputs with values up to 2**450, every pixel of the coadd is within (3n+2)*2**-52 of the weighted mean, relative to the weighted mean of the absolute values (plus 2**-1000), and the masked fraction is not negative and exceeds one by at most that. The weight is one over that mean squared deviation within (n+6)*2**-52 for n pixels, up to the square of the rounding error of the mean. If every PSF image that contributes sums to one up to d, the mean PSF sums to one up to d plus these rounding errors.", "quantifier": "all lists of resampled inputs and weights, all permutations, exact arithmetic and doubles", "why_tests_cant": "All lists and permutations.", "anchors": ["pizza_cutter/des_pizza_cutter/_coadd_slices.py:_coadd_slice_inputs"]}
{"id": "C40", "title": "Interpolated pixels are flagged", "statement": "A bit of the pixel mask of a used image is set exactly as follows: BMASK_NOISE_INTERP on pixels with a noise-interpolation flag; BMASK_SPLINE_INTERP on pixels changed by edge copying or interpolation in the image or any noise field, or with negative weight or spline-interpolation flag left after edge copying; nothing else. Hence a pixel with mask zero compares equal to the pixel read. It is not true that every pixel needing interpolation is marked: a zero-weight, unflagged pixel whose value happens not to change is not, nor is a flagged pixel of an overwritten edge when the copied value is equal.", "quantifier": "all images, weights, masks and interpolants", "why_tests_cant": "All inputs; the exception depends on a coincidence of values.", "anchors": ["pizza_cutter/des_pizza_cutter/_coadd_slices.py:_build_slice_inputs"]}
{"id": "C41", "title": "Resampled masks come from the nearest pixel", "statement": "The bit mask of a resampled image at a coadd pixel is the mask of the SE pixel whose centre is nearest to the mapped position, or BMASK_EDGE if that pixel is outside the slice, for all mapped positions >= -0.5; positions in (-1.5, -0.5) are wrongly given the mask of row/column 0. Positions that are not finite or do not fit in 64 bit integers get BMASK_EDGE. In double arithmetic, for positions up to 2**30, the pixel's centre is within half a pixel plus 2**-20 of the position; just below one half the wrong neighbour can be taken.", "quantifier": "all masks, all real mapped positions; all doubles up to 2**30", "why_tests_cant": "All real positions, including the rounding boundary.", "anchors": ["pizza_cutter/des_pizza_cutter/_se_image.py:SEImageSlice.resample"]}
{"id": "C42", "title": "Nearest-pixel mapping of coadd masks", "statement": "map_image_by_nearest_pixel gives each SE pixel the value of the coadd pixel nearest to its mapped position, and 0 if that pixel is outside the coadd slice. Positions that are not finite or do not fit in 64 bit integers are outside. In double arithmetic, for positions up to 2**30, the centre of the pixel used is within half a pixel plus 2**-20 of the position.", "quantifier": "all images, all real mapped positions; all doubles up to 2**30", "why_tests_cant": "All real positions.", "anchors": ["pizza_cutter/des_pizza_cutter/_se_image.py:SEImageSlice.map_image_by_nearest_pixel"]}
{"id": "C43", "title": "Slice bounds are square, centred and parity-matched", "statement": "compute_slice_bounds returns integer bounds of equal height and width, at least int(frac_buffer*box_size), with the parity of box_size, whose centre is within half a pixel of the mapped position in each axis. In double arithmetic the same holds for sizes and positions up to 2**30, the centre being within half a pixel plus 2**-20 of the position, and a buffer fraction of at least one never shrinks the box.", "quantifier": "all positions, box sizes and buffer fractions; all doubles up to 2**30", "why_tests_cant": "All reals and all parities.", "anchors": ["pizza_cutter/des_pizza_cutter/_se_image.py:SEImageSlice.compute_slice_bounds"]}
{"id": "C44", "title": "Accepted slices are read completely", "statement": "If ccd_contains_bounds accepts the patch bounds, set_slice reads a full box_size x box_size window of image, weight, mask and noise, pixel (i, j) of the slice being pixel (y_start+i, x_start+j) of the CCD; nothing wraps around or is truncated.", "quantifier": "all CCD shapes, all bounds, all buffers >= 0", "why_tests_cant": "All bounds, including negative starts that numpy would accept silently.", "anchors": ["pizza_cutter/des_pizza_cutter/_se_image.py:SEImageSlice.set_slice", "pizza_cutter/des_pizza_cutter/_se_image.py:SEImageSlice.ccd_contains_bounds"]}
{"id": "C45", "title": "Zero-point scaling preserves signal to noise", "statement": "set_slice scales image by a positive factor and weight by its inverse square, so the signal to noise of every pixel and the sign of every weight are unchanged. In double arithmetic, for pixels, weights and scales away from the limits of the range, the squared pixel times its weight is kept within 6*2**-52 relative and no sign changes.", "quantifier": "all images, weights and zero points, exact arithmetic and doubles", "why_tests_cant": "All reals.", "anchors": ["pizza_cutter/des_pizza_cutter/_se_image.py:SEImageSlice.set_slice", "pizza_cutter/des_pizza_cutter/_se_image.py:_read_image"]}
{"id": "C46", "title": "Tape-bump masking is idempotent and confined", "statement": "Masking tape bumps changes only pixels inside the listed rectangles of the CCD, where it sets the bump flag and clears the suspect bit; applying it any number of times equals applying it once, so repeated use of a cached mask gives the same mask. The edit is visible through the image cache to later readers that asked for no tape-bump masking. Every one of the 62 CCDs has six rectangles, at the lower end, the middle and the upper end of its two long sides; because they are listed counted from one and applied counted from zero, the first row and the first column are never masked.", "quantifier": "all masks, all CCD numbers in the table, all numbers of applications and histories", "why_tests_cant": "All histories of cached reads.", "anchors": ["pizza_cutter/des_pizza_cutter/_se_image.py:SEImageSlice._set_tape_bump_mask", "pizza_cutter/des_pizza_cutter/_tape_bumps.py:TAPE_BUMPS"]}
{"id": "C47", "title": "Caching is transparent", "statement": "Results of the bounded LRU-cached readers equal those of the uncached functions for every call history and cache size, provided equal keys denote equal inputs and results are not modified.", "quantifier": "all call histories, cache sizes and functions", "why_tests_cant": "All histories, with evictions.", "anchors": ["pizza_cutter/des_pizza_cutter/_se_image.py:_read_image", "pizza_cutter/des_pizza_cutter/_se_image.py:_get_noise_image", "pizza_cutter/des_pizza_cutter/_piff_tools.py:get_piff_psf"]}
{"id": "C48", "title": "PSF quality flags", "statement": "compute_piff_flags sets bit 0..4 iff the corresponding documented condition holds; a cut set to None never fires, and no other bit is set.", "quantifier": "all PSF statistics (with NaN) and all cut values or None", "why_tests_cant": "All combinations.", "anchors": ["pizza_cutter/des_pizza_cutter/_piff_tools.py:compute_piff_flags"]}
{"id": "C49", "title": "Flagging of input images only adds flags", "statement": "flag_data_in_info never clears an image flag; it sets the piff flag iff the PSF cuts fail and the ignored-CCD bit iff the CCD is listed, and leaves images alone otherwise. It raises KeyError if the config has no single_epoch section although that section is treated as optional a few lines earlier.", "quantifier": "all info dictionaries and configurations", "why_tests_cant": "All inputs.", "anchors": ["pizza_cutter/des_pizza_cutter/_des_info.py:flag_data_in_info"]}
{"id": "C50", "title": "Input consistency check is sound and complete", "statement": "check_info accepts an info dictionary exactly when there are one tile name and one band to which all its paths, file names, CCD slugs, scamp headers, tile names, bands and its scale of 1 agree; any disagreement is reported as RuntimeError, except that a KeyError is raised when no coadd file is named, and when coadd files of two tiles are named while a coadd key is absent. The outcome does not depend on set iteration order.", "quantifier": "all info dictionaries, all iteration orders of sets", "why_tests_cant": "All inputs, all orders.", "anchors": ["pizza_cutter/des_pizza_cutter/_des_info.py:check_info", "pizza_cutter/des_pizza_cutter/_des_info.py:_key_is_null"]}
{"id": "C51", "title": "Image identifiers are consistent", "statement": "load_objects_into_info numbers the coadd 0 and the single-epoch images 1..n in order, so that image_info rows are indexed by image_id and the check on ids in _build_image_info never fails; every row holds the values of its image, with paths never truncated but extension names cut to 3 characters; a tile without sources fails with ValueError.", "quantifier": "all info dictionaries", "why_tests_cant": "All lengths.", "anchors": ["pizza_cutter/des_pizza_cutter/_load_info.py:load_objects_into_info", "pizza_cutter/des_pizza_cutter/_pizza_cutter.py:_build_image_info"]}
{"id": "C52", "title": "FITS header munging", "statement": "_munge_fits_header maps every readable header key to its lower-cased form; for keys that differ only by case the last one wins; unreadable keys are dropped and nothing else is.", "quantifier": "all headers", "why_tests_cant": "All key lists.", "anchors": ["pizza_cutter/des_pizza_cutter/_load_info.py:_munge_fits_header"]}
{"id": "C53", "title": "Coadd PSF stamp geometry", "statement": "_build_coadd_psf_layout and the SE PSF stamp bounds centre an odd-sized stamp on the pixel nearest to the slice centre, with the stamp centre within half a pixel; even sizes are refused by assertion. In double arithmetic the same holds for positions, sizes and offsets up to 2**30, with half a pixel plus 2**-20; just below one half the wrong neighbour can be taken.", "quantifier": "all positions and sizes; all doubles up to 2**30", "why_tests_cant": "All reals.", "anchors": ["pizza_cutter/des_pizza_cutter/_pizza_cutter.py:_build_coadd_psf_layout", "pizza_cutter/des_pizza_cutter/_se_image.py:SEImageSlice._compute_psf_stamp_bounds"]}
{"id": "C54", "title": "PSF images are normalised", "statement": "get_psf_image and resample_psf return stamps summing to one (exact arithmetic, non-zero raw sum) with odd dimensions, and resample_psf sets out-of-bounds pixels to zero before normalising. In double arithmetic, for n pixels whose sum does not cancel, the stamp sums to one within (2n+2)*2**-52 times the condition number of the sum, each pixel is as close to its quotient, and the position and subpixel offset asked for are right up to rounding. The resampled PSF is, in double arithmetic and up to rounding, the Lanczos kernel sum of the surface brightness of the PSF stamp at the mapped positions, divided by its sum.", "quantifier": "all raw PSF stamps and positions, exact arithmetic and doubles", "why_tests_cant": "All reals.", "anchors": ["pizza_cutter/des_pizza_cutter/_se_image.py:SEImageSlice.get_psf_image", "pizza_cutter/des_pizza_cutter/_se_image.py:SEImageSlice.resample_psf"]}
{"id": "C55", "title": "FWHM does not depend on flux", "statement": "measure_fwhm is the diameter of the disc with the (smoothed) area of the pixels above half of the maximum; it is unchanged when the image is multiplied by a positive constant or its pixels are permuted, it is positive and at most the diameter of a disc with the area of the image, and it grows when pixels are raised under the same maximum. On doubles the width exists, is that diameter up to rounding and lies between 1/1024 and 1024 pixels, and multiplying the image by a constant exactly (a power of two) leaves every bit of it unchanged.", "quantifier": "all images with positive maximum, all positive factors, in exact arithmetic; images of at most 2^18 doubles in double arithmetic", "why_tests_cant": "All images.", "anchors": ["pizza_cutter/slice_utils/measure.py:measure_fwhm"]}
{"id": "C56", "title": "WCS lookup grids cover the SE image", "statement": "The positions tabulated to invert a WCS are the crossings of the grid lines, each once; every position of the single-epoch image, including its half-pixel border, lies in a cell whose four corners are tabulated; each entry pairs an SE position with the coadd position it maps to (offset removed), in both directions, so an interpolant that reproduces its data inverts the WCS exactly at the nodes. In double arithmetic the positions of the table are exact and the numbers of grid lines that numpy gets from rounded quotients are right, so all of this holds there too (sizes up to 2^25).", "quantifier": "all WCS maps, image sizes, grid steps >= 1, positions, interpolation methods", "why_tests_cant": "All sizes and steps.", "anchors": ["pizza_cutter/des_pizza_cutter/_se_image.py:_get_wcs_inverse"]}
{"id": "C57", "title": "Pixel areas", "statement": "The pixel area computed from a WCS is non-negative, equals |det| for affine maps, is the determinant in arcsec^2 with the cos(dec) factor for celestial WCSs and does not depend on RA branch choices; the area table can be built exactly for images larger than twice the step and its node (a, b) holds the area at (a-1/2+offset, b-1/2+offset): lookups are half a pixel off (finding). In double arithmetic the area of an affine WCS is that up to 2^-46 * M^2 * P, M bounding the matrix elements and P the positions.", "quantifier": "all WCS maps and positions", "why_tests_cant": "All maps.", "anchors": ["pizza_cutter/des_pizza_cutter/_se_image.py:_compute_wcs_area", "pizza_cutter/des_pizza_cutter/_se_image.py:_get_wcs_area_interp"]}
{"id": "C58", "title": "Output names of parallel ranges do not collide", "statement": "For directory outputs, two runs on the same tile with the same configuration get the same output file name exactly if their slice ranges are the same integers (or both absent); texts that are not ranges are refused; .fits and .fits.fz outputs are used as given. (Different tags with different configuration names can collide.)", "quantifier": "all ranges of integers, all paths, names and tags", "why_tests_cant": "Injectivity over all pairs.", "anchors": ["bin/des-pizza-cutter:go"]}
{"id": "C59", "title": "Effective number of epochs is bounded", "statement": "nepoch_eff stored for a slice lies between 1 and nepoch for positive weights, in exact arithmetic; in double arithmetic it is at least 1 and exceeds nepoch by at most the rounding of the sum.", "quantifier": "all non-empty lists of positive weights, exact arithmetic and doubles", "why_tests_cant": "All lists.", "anchors": ["pizza_cutter/des_pizza_cutter/_pizza_cutter.py:_process_results"]}
{"id": "C60", "title": "Hashing of run identifiers is in range", "statement": "The fpack seed is an integer in [1, 9999] for every string: the last four decimal digits of the hash, with 0 replaced by 1; the fpack command depends on tile, band and path only.", "quantifier": "all strings", "why_tests_cant": "All strings.", "anchors": ["pizza_cutter/des_pizza_cutter/_pizza_cutter.py:_hash_to_int"]}
{"id": "C61", "title": "Logging levels cannot be overwritten", "statement": "addLoggingLevel adds exactly the level name, its module and class methods and its entries in the level tables if none of the attribute names exists, and otherwise raises AttributeError; a second call with the same name always raises. (A lower-case level name loses its number attribute, and the number of an existing level can be taken over.)", "quantifier": "all logging states and names", "why_tests_cant": "All states.", "anchors": ["pizza_cutter/__init__.py:addLoggingLevel"]}
{"id": "C62", "title": "PSF model failures are detected", "statement": "The PSF model of an image is flagged bad iff some sampled stamp statistic is not finite or deviates from the median by more than the configured maximum; the order of the samples does not matter. In double arithmetic the deviation is judged up to 2^-50 of the largest statistic, and with an odd number of samples a model is never flagged without a statistic that is really beyond the maximum.", "quantifier": "all sampled statistics and thresholds", "why_tests_cant": "All lists.", "anchors": ["pizza_cutter/des_pizza_cutter/_se_image.py:_compute_bad_piff_model_delta_flag"]}
{"id": "C63", "title": "All images of an epoch are resampled alike", "statement": "resample gives the image, every noise image, the interpolated-only image and the interpolated fraction as the same Lanczos kernel sum of surface brightness (value over SE pixel area) at the same mapped positions times the coadd pixel area; a pixel is reported as edge iff no SE pixel is in the kernel window, and then all of them are zero. It succeeds for every complete object with consistent shapes and finite positions. In double arithmetic the same holds at the rounded positions up to 2^-27 of the largest surface brightness in the window times the coadd pixel area, and the edge and zero statements hold exactly.", "quantifier": "all WCS maps, areas, images, numbers of noise images, start positions and sizes", "why_tests_cant": "tests use a few smooth images and one WCS; agreement must hold for every position and every image", "anchors": ["pizza_cutter/des_pizza_cutter/_se_image.py:SEImageSlice.resample", "pizza_cutter/coadding/_lanczos.py:lanczos_resample_two"]}
{"id": "C64", "title": "Slice objects demand their setters", "statement": "After any history of setter calls, resample raises RuntimeError if set_slice, set_psf or set_interp_image_noise_pmask was never called, and setting interpolated data before a slice fails; interpolated data marks exactly the masked pixels. Reading another slice does not reset the interpolated data, so resample can return the pixel mask of an older slice.", "quantifier": "all histories of setter calls", "why_tests_cant": "there are unboundedly many call histories; the stale case needs a specific order", "anchors": ["pizza_cutter/des_pizza_cutter/_se_image.py:SEImageSlice.set_interp_image_noise_pmask", "pizza_cutter/des_pizza_cutter/_se_image.py:SEImageSlice.resample"]}
{"id": "C65", "title": "What loading a tile gives and when it fails", "statement": "load_objects_into_info either adds to every image exactly the described objects (a WCS that cannot be built is None if there is an affine WCS; the scamp WCS uses the scamp header with the image sizes of the image header; PSF models that cannot be loaded are None, all Piff entries together) or raises the exception of the first image whose WCS, affine WCS or galsim PSF cannot be made; PSFEx and Piff failures never stop it.", "quantifier": "all info dictionaries, all headers, all behaviours of the readers and constructors, both values of skip_se", "why_tests_cant": "All combinations of failures of external readers over all source lists.", "anchors": ["pizza_cutter/des_pizza_cutter/_load_info.py:load_objects_into_info"]}
{"id": "C66", "title": "Temporary directory and uncompressed file", "statement": "The command line makes a temporary directory exactly if --use-tmpdir or --tmpdir is given, inside the given one; the uncompressed MEDS file is kept exactly in debug mode without a temporary directory.", "quantifier": "all log levels and options", "why_tests_cant": "All texts for the log level and all combinations.", "anchors": ["bin/des-pizza-cutter:go", "bin/des-pizza-cutter:main"]}
{"id": "C67", "title": "Resampling a constant image", "statement": "Where the kernel window lies inside of the image and the image is constant on it, lanczos_resample returns that constant up to a relative error of 1.15 percent for the size 3 kernel that the coadding uses (3.84 percent for size 2, 34.31 percent for size 1). The kernel is not normalised: half way between pixels the size 3 kernel loses more than 1.1 percent of the level. In double arithmetic the same bounds hold up to 1e-6 of the level.", "quantifier": "all images constant on the window, all positions, real or double, kernel sizes 1 to 3", "why_tests_cant": "A bound over a continuum of sub-pixel offsets.", "anchors": ["pizza_cutter/coadding/_lanczos.py:lanczos_resample", "pizza_cutter/coadding/_sinc.py:sinc_pade"]}
{"id": "C68", "title": "The object data describe the tiling", "statement": "For a geometry that tiles, the object data have one row per slice of the exact tiling, in row-major order, numbered from 0. The row gives the stamp size, the start and the centre of the stamp in the coadd and the centre in the stamp and in the PSF image, all without rounding error in double arithmetic, and the sky position and Jacobian of the coadd WCS at that centre (x from the column, y from the row, plus the position offset). It fails only if the geometry does not tile or the WCS fails. The width of the coadd is taken from the header's uncompressed width if there is one.", "quantifier": "all sizes up to 2**50, all position offsets, all WCS functions", "why_tests_cant": "Holds for every geometry and every slice, including exactness of the stored doubles.", "anchors": ["pizza_cutter/des_pizza_cutter/_pizza_cutter.py:_build_object_data", "pizza_cutter/des_pizza_cutter/_pizza_cutter.py:_get_image_width"]}
{"id": "C69", "title": "Star masks cover the stars of the catalogue", "statement": "Without symmetrization a pixel of the star mask of a slice is set exactly if the pixel of the coadd at that place lies inside of a catalogue star no fainter than the magnitude limit, with the radius given by the configured polynomial. Two slices therefore agree about the pixels they share. Stars fainter than the limit or with a NaN magnitude change nothing. The stored table has all stars in catalogue order with zero-based positions. In double arithmetic the mask is right except for pixels within 2^-29 pixels, plus the tolerance of the drawing routine, of the edge of a star; two slices agree about all other pixels; and the value of the polynomial is right up to three roundings per coefficient.", "quantifier": "all catalogues, coordinate functions, polynomials, limits, slice positions and sizes; all ways of drawing that depend on displacement and radius only", "why_tests_cant": "It ranges over all catalogues and positions and relates pairs of overlapping slices.", "anchors": ["pizza_cutter/des_pizza_cutter/_pizza_cutter.py:_read_gaia_stars", "pizza_cutter/des_pizza_cutter/_pizza_cutter.py:_add_gaia_radius", "pizza_cutter/des_pizza_cutter/_pizza_cutter.py:_build_gaia_star_mask"]}
{"id": "C70", "title": "Ordering the slices loses none and keeps neighbours together", "statement": "The order in which slices are processed is a permutation of the requested slices, and slices whose centre lies in the same cell of an 8 x 8 division of the coadd are processed one after the other; in double arithmetic too, since rounding never moves a position into another cell. Ordering fails only if the coordinate transformation fails or gives a position that is infinite (an OverflowError) or a NaN (a ValueError).", "quantifier": "all sets of slices, coordinate functions, image shapes, sorting routines (stable or not) and space-filling curves", "why_tests_cant": "It must hold for every set of slices and every tie-breaking of the sort.", "anchors": ["pizza_cutter/des_pizza_cutter/_pizza_cutter.py:_coadd_and_write_images"]}
{"id": "C71", "title": "Lists of flags in the configuration", "statement": "The lists noise_interp_flags, spline_interp_flags and bad_image_flags select exactly the mask values that have one of the listed flags if, and only if, no two entries share a bit. A flag that is written twice selects another flag instead.", "quantifier": "all lists of nonnegative flags and all mask values", "why_tests_cant": "It ranges over all lists and all mask values; the configurations in use all have disjoint flags.", "anchors": ["pizza_cutter/des_pizza_cutter/_pizza_cutter.py:_coadd_single_slice"]}
{"id": "C72", "title": "The file holds the weighted means of the acceptable images", "statement": "When a run completes, serially or with any number of worker processes and under any schedule, the file holds for each requested slice, at the place of that slice, the mean of images that contribute to it: each of them comes from an input image without flags that covers the stamp and has a good PSF, the weights are positive and add up to one, and image, PSF, noises and masked fraction are averaged with the same weights while the masks are joined. The weight map is one over the variance of the averaged noise, the number of epochs is the number of images averaged, and the PSF is evaluated at the pixel nearest to the centre of the stamp. A slice without acceptable images stays empty. The star mask of a slice has exactly the bright stars of the catalogue. The work on a slice succeeds when the coordinate functions, reading and resampling do. In double arithmetic, for ordinary weight maps and finite pixels, the recorded weights are the exact normalised ones and the stored images are the weighted means, the weight map is one over the variance of the stored noise, all up to a stated rounding error.", "quantifier": "all tiles, configurations, input images, random streams, sets of slices, numbers of processes and schedules; exact arithmetic and doubles", "why_tests_cant": "It joins every stage from selection to writing for all inputs and all interleavings of the worker processes.", "anchors": ["pizza_cutter/des_pizza_cutter/_pizza_cutter.py:_coadd_single_slice", "pizza_cutter/des_pizza_cutter/_pizza_cutter.py:_coadd_and_write_images", "pizza_cutter/des_pizza_cutter/_pizza_cutter.py:make_des_pizza_slices"]}
{"id": "C73", "title": "Pixel and sky positions of a single-epoch image", "statement": "image2sky and sky2image of a single-epoch image work in zero-indexed pixel positions: the WCS is asked at the position plus the offset and with the colour of the image, and a position that it returns has the offset taken off. If the WCS undoes itself, so do the two methods, for scalars and for one-dimensional arrays; this is so for every affine WCS. Arrays are answered element by element, scalars with scalars. Arguments of two or more dimensions, or of different dimensions, are an AssertionError; a WCS of unknown type is a ValueError. The Jacobian is the one of the WCS at the same position; for an affine WCS it is the derivative of image2sky and the pixel area is the absolute determinant. In double arithmetic the round trip of an affine WCS returns the position up to rounding: with matrix elements at most M and positions, offset and reference point at most P the error is at most 2^-46 * (M^2 / |determinant|) * P. The pixel area is |determinant| up to 2^-46 * M^2 * P.", "quantifier": "all WCSs, offsets, colours, positions and array lengths", "why_tests_cant": "Tests compare a few positions for a few WCSs; an offset applied with the wrong sign on one side cancels in a round trip test of one WCS type.", "anchors": ["pizza_cutter/des_pizza_cutter/_se_image.py:SEImageSlice.image2sky", "pizza_cutter/des_pizza_cutter/_se_image.py:SEImageSlice.sky2image", "pizza_cutter/des_pizza_cutter/_se_image.py:SEImageSlice.get_wcs_jacobian", "pizza_cutter/des_pizza_cutter/_se_image.py:SEImageSlice.get_wcs_pixel_area"]}
{"id": "C74", "title": "Construction of a single-epoch image", "statement": "A constructed single-epoch image uses the WCS and the PSF model that were asked for by name, loaded from the paths in its source information, or the objects that were given; Piff PSF and Pixmappy WCS of one image come from the same load. The shape is the recorded one, else that of the file. Unknown names are a RuntimeError. Construction succeeds when these are there and the WCS has an answer everywhere on the image. A flat galsim WCS is refused with an AssertionError. The sky positions of its own pixels are reported as contained: all of them, and 16 arcsec around, for an affine WCS (in double arithmetic less a rounding error of 2^-47 * M * P), and the corners for any WCS.", "quantifier": "all source informations, loaders, names, WCSs, PSF models, shapes and positions", "why_tests_cant": "It ranges over all combinations of names and keys and all WCSs and positions.", "anchors": ["pizza_cutter/des_pizza_cutter/_se_image.py:SEImageSlice.__init__", "pizza_cutter/des_pizza_cutter/_se_image.py:SEImageSlice.ccd_contains_radec", "pizza_cutter/des_pizza_cutter/_se_image.py:SEImageSlice.is_celestial"]}
{"id": "C75", "title": "Preparation of a tile's information", "statement": "Preparing a tile keeps the number and order of its sources and changes each source entry only by the documented settings: shape 4096 by 2048, cleared flags, extensions, weight and mask path equal to the image path, position offset 1, PSFEx path equal to the PSF path, and the scale 10**(0.4 (30 - magzp)), which is the factor applied when pixels are read. A source with a Piff model gets the row of the quality table for its file when a campaign is given; a missing row is an error and without a campaign the table is not asked for. The coadd entry gets its settings and the first row of the geometry table; no row is a RuntimeError. Preparation succeeds exactly when the needed keys and rows are there, and doing it again changes nothing.", "quantifier": "all tile informations, numbers of sources, quality and geometry tables, campaigns and zero points", "why_tests_cant": "It ranges over all dictionaries, extra keys and tables, and says what does not change as well as what does.", "anchors": ["pizza_cutter/des_pizza_cutter/_des_info.py:add_extra_des_coadd_tile_info", "pizza_cutter/des_pizza_cutter/_des_info.py:get_coaddtile_geom", "pizza_cutter/des_pizza_cutter/_piff_tools.py:get_piff_psf_info"]}
{"id": "C76", "title": "Writing of a tile's information file", "statement": "The tile preparation command opens the information file only after the downloads, the preparation and the sanity checks have succeeded, so any earlier failure leaves an older file as it was. It ends without an exception exactly when the complete checked information was written (or when only cleaning was asked for, which fetches and writes nothing). A failure while writing leaves an incomplete file and raises. A configuration without a Piff campaign fails after the downloads. Files of different tiles and bands are different. The file is $MEDS_DIR/<medsconf>/pizza_cutter_info/<tile>_<band>_pizza_cutter_info.yaml, and a missing MEDS_DIR raises KeyError.", "quantifier": "all configurations, tile and band names, environments and outcomes (success or exception) of every step", "why_tests_cant": "It ranges over a failure at every step of the command.", "anchors": ["bin/des-pizza-cutter-prep-tile:main", "pizza_cutter/files.py:get_des_info_file"]}
{"id": "C77", "title": "Metadata and tile information are kept", "statement": "The metadata of the output hold the configuration text, the version of every package and the data directories in full, whatever their length: reading a column gives back the text (unless it ends in a NUL character). Unset optional directories read as empty. The reference zero point is 30. The bytes of the tile information extension are the characters of the JSON text. This fails exactly when MEDS_DIR is not set (KeyError) or the JSON text is not ASCII (ValueError).", "quantifier": "all configuration texts, versions, environments and JSON texts", "why_tests_cant": "It ranges over all texts and lengths; column widths are computed from the same texts.", "anchors": ["pizza_cutter/des_pizza_cutter/_pizza_cutter.py:_build_metadata"]}
{"id": "C78", "title": "Layout and compression of the image extensions", "statement": "The file has the documented image extensions in order, with one more noise extension for every extra noise image, all with different names; masks and segmentation are integers, the rest floats; each has room for all slices. Compression keywords are those configured, and if no tile size is configured each slice of an extension is exactly one compression tile. The dither seed given to fpack is always between 1 and 9999.", "quantifier": "all numbers of slices and extra noise images, box sizes, keyword tables and hashes", "why_tests_cant": "It ranges over all sizes and configurations.", "anchors": ["pizza_cutter/des_pizza_cutter/_pizza_cutter.py:_reserve_images", "pizza_cutter/des_pizza_cutter/_pizza_cutter.py:_hash_to_int", "pizza_cutter/des_pizza_cutter/_constants.py:CUTOUT_DTYPES"]}
{"id": "C79", "title": "A whole run", "statement": "Unusable inputs (missing environment, keys or sources, a tiling that does not fit, a failing WCS) raise before any file or directory is touched. A run that ends normally leaves at the output path the compressed form of one file with, in this order, the image extensions of the layout holding the output of the work on the slices, the object table (tiling and processing columns of every slice), the epochs, the metadata, the tile information, the image table and, if a catalogue was configured, the stars, and this file has passed validation. If every part works the run ends normally. The coadd shape is required, although the code has a fallback for its width.", "quantifier": "all arguments, file system states, schedules of the work, and outcomes of the external parts", "why_tests_cant": "It ranges over all inputs, file systems, failures and schedules.", "anchors": ["pizza_cutter/des_pizza_cutter/_pizza_cutter.py:make_des_pizza_slices", "pizza_cutter/des_pizza_cutter/_pizza_cutter.py:_coadd_and_write_images"]}
{"id": "C80", "title": "Seeds of a run", "statement": "A run draws all its seeds one after the other from one generator started with the given seed: first one for every slice of the tile (from 1 up to but excluding 2^32-1), then for every single-epoch image, in order, one for its noise field, one for each extra noise field and one for its mask (from 1 up to but excluding 2^30). Hence the seeds of the slices do not depend on the images, those of an image do not depend on the images after it, and neither depends on which slices are done or how work is divided.", "quantifier": "all generators, seeds, numbers of slices, images and extra noise fields", "why_tests_cant": "It ranges over all seeds and all sizes.", "anchors": ["pizza_cutter/des_pizza_cutter/_pizza_cutter.py:_coadd_and_write_images"]}
{"id": "C81", "title": "Exactly the single-epoch images that can hold the slice contribute to it", "statement": "For a slice position, the images examined are split into those that are kept, in the order of the list, and those that are passed over. An image is passed over only if it has flags, if the position is outside of its rough sky bounds, or if the square box around the position (slice size times the buffer fraction, same parity as the slice) does not fit on the CCD with the edge buffer. A kept image is cut out centred on the position within half a pixel, all its pixel arrays are complete windows of its files, its PSF is its model drawn at the PSF position, and its PSF flag is the verdict of the piff test on the piff model of the file that is listed for the image, which is the model that is drawn when the piff model is used. With an affine WCS the rough bounds lose no image on which the box fits. Images with flags are never opened, and images do not influence each other. If the unflagged images are usable, the selection and the later judging and weighting of images succeed. In double arithmetic the same split holds, with boxes and stamps that are centred up to half a pixel and 2^-19 of a pixel.", "quantifier": "for every list of images (WCS, PSF model, shape, files, flags), configuration, sky positions, slice size, and behaviour of the libraries", "why_tests_cant": "the claim is about all positions of the slice relative to the CCD, all WCS and all lists of images, including images whose files must not be opened; tests use a few positions on one simulated CCD", "anchors": ["pizza_cutter/des_pizza_cutter/_coadd_slices.py:_build_slice_inputs", "pizza_cutter/des_pizza_cutter/_se_image.py:SEImageSlice"]}
{"id": "C82", "title": "A slice, from the pixels of the images to the file", "statement": "After a completed run, slice number i is the one in row i div n and column i mod n of the n by n tiling. Its sky position is that of the middle of its stamp, the PSF is put on the coadd pixel nearest to it. The pixels stored in the file for it are the weighted mean, with positive weights that sum to one, of contributions of unflagged images of the tile, each of which is a window of the image's own pixels (background subtracted, scaled, marked pixels replaced, others untouched) resampled with a Lanczos kernel of the surface brightness at the positions which the lookup tables give. The tables hold, for every node of the grid, the position on the coadd of the sky position of that node, and the pixel areas computed by differences from the same WCS. Stored masks are the union of those of the contributions at the truncated positions, and the mean PSF sums to one if the contributing ones do. If images and coadd WCS are usable, the work on every slice succeeds. Pixels of an image whose nearest coadd pixel is in the star mask are not counted when it is decided whether too much of the image is masked. All this is also proved in double arithmetic, where positions, weights, kernel sums and means are right up to explicit rounding errors.", "quantifier": "for every tile (images, files, WCS, configuration), seed, schedule of the work, slice range, and behaviour of the libraries; exact arithmetic and doubles of ordinary size", "why_tests_cant": "It composes all stages for every tile, slice, schedule and library answer; the tests run single stages or one simulated tile.", "anchors": ["pizza_cutter/des_pizza_cutter/_pizza_cutter.py:_coadd_single_slice", "pizza_cutter/des_pizza_cutter/_coadd_slices.py:_build_coadd_weight", "pizza_cutter/des_pizza_cutter/_coadd_slices.py:_coadd_slice_inputs", "pizza_cutter/des_pizza_cutter/_se_image.py:SEImageSlice.resample"]}
{"id": "C83", "title": "The command line tool: from the two input files to the output file", "statement": "A run of des-pizza-cutter that cannot use its input (unreadable files, an inconsistent description of the tile, missing keys or sections, a bad slice range or log level) raises before any file is changed. Otherwise it works on the description as it is in the file, with numbers given to the images in order and with exactly the flag bits that are due added to the sources. After a run without an exception the output holds the text of the configuration file, the description as it was in the file, and a table with one row per image whose flags, paths and scales are those of the file plus the flags that are due. Only the compressed and the uncompressed output may change; with a temporary directory only the compressed one, and the directory is gone afterwards whatever happens. A description that des-pizza-cutter-prep-tile has written is accepted, whatever order sets have in either run.", "quantifier": "for every pair of input files, options, state of the file system, behaviour of the libraries, and outcome of the work on the slices", "why_tests_cant": "the claims range over all descriptions, configurations, failures and set orders; the test of the command runs it on one simulated tile", "anchors": ["bin/des-pizza-cutter:go", "bin/des-pizza-cutter:main", "pizza_cutter/des_pizza_cutter/_load_info.py:load_objects_into_info", "pizza_cutter/des_pizza_cutter/_des_info.py:flag_data_in_info", "pizza_cutter/des_pizza_cutter/_des_info.py:check_info"]}
{"id": "C84", "title": "The answer for a slice does not depend on what the process did before", "statement": "A worker keeps opened images, masks, noise images, WCS objects, PSF models, area tables and other things in caches of limited size while it works on slices one after the other; a function clears most of them and can be called at any time. Whatever slices a process has worked on before, in whatever order and with whatever clearings, and whatever the sizes of the caches, the answer for a slice (result or exception, pixels, tables, images, masks, PSFs) is the one a fresh process gives; so two processes give the same answer for the same slice. This needs that the texts that identify different images and noise seeds do not collide under the hash, and that a mask file belongs to one CCD, because masks of the tape bumps are written into the cached array. Without these two conditions the answers can differ.", "quantifier": "for every history of slices and cache clearings of a process, all cache sizes, lists of images, configurations, contents of the files and behaviour of the libraries", "why_tests_cant": "tests look at one slice in a fresh process; a dependency on the history shows only for particular orders of slices, evictions from the caches and clearings, of which there are unboundedly many", "anchors": ["pizza_cutter/des_pizza_cutter/_se_image.py:clear_image_and_wcs_caches", "pizza_cutter/des_pizza_cutter/_se_image.py:_read_image_cached", "pizza_cutter/des_pizza_cutter/_se_image.py:_get_noise_image", "pizza_cutter/des_pizza_cutter/_se_image.py:SEImageSlice", "pizza_cutter/des_pizza_cutter/_coadd_slices.py:_build_slice_inputs", "pizza_cutter/des_pizza_cutter/_pizza_cutter.py:_coadd_single_slice"]}
{"id": "C85", "title": "With caching worker processes, the output does not depend on how the work is spread", "statement": "Every worker process keeps caches from slice to slice and from chunk to chunk, and starts as a copy of the main process, which has loaded some WCS objects already. Two runs with the same input have the same output (same images, same object data, same epoch rows up to the order of the slices), whatever the number of processes and chunks, the order of the slices, the schedule, the size of the result queue, the sizes of the caches, what is in them at the start, which entries get lost between chunks, and the hash function of the process. When one completes the other can, and when one raises an exception the other does not complete. The run neither hangs nor goes on for ever. This needs the conditions of C84 on the hashes and mask files.", "quantifier": "for all inputs, ways of running (numbers of processes and chunks, orders, queue sizes), schedules, cache sizes, contents of the caches at the start that the loader of WCS objects produced, and losses of entries", "why_tests_cant": "the number of schedules is unbounded, and each gives every process another history of slices and so other contents of its caches", "anchors": ["pizza_cutter/des_pizza_cutter/_pizza_cutter.py:_coadd_and_write_images", "pizza_cutter/des_pizza_cutter/_pizza_cutter.py:_process_slice_chunk", "pizza_cutter/des_pizza_cutter/_pizza_cutter.py:_build_image_info", "pizza_cutter/des_pizza_cutter/_se_image.py:clear_image_and_wcs_caches"]}
{"id": "C86", "title": "The command writes a file that is determined by its two input files", "statement": "Run the command on a configuration and a tile description. The images that the slices are made from are those of the description, in its order, with the ids 1, 2, ..., the flags that the file gives together with those that are due from the quality cuts and the ignored CCDs, and the files, extensions, zero points and models of its entries; the options are those of the configuration. For every slice that was asked for, the output file holds at the place of the slice the pixels, the row of the object table and the rows of the table of epochs that the work on that slice gives with the seed of the slice; elsewhere the images are zero. Two runs on the same two input files write the same extensions in the same order with the same contents (the table of epochs put together from the same tables of slices, maybe in another order), whatever the number of processes and chunks, the order of the slices, the schedule, the sizes and losses of caches, the hashes, the iteration order of sets, the log level, the tag, the name of the output, the temporary directory and what was on the disk; and when the work on the slices completes in one way, it completes, and cannot fail, in every other. That images have different ids and that a mask belongs to one CCD, as C84 and C85 need, follows from the checks of the description.", "quantifier": "for all configurations, tile descriptions, options, contents of image files, behaviours of the libraries, ways of running, schedules, cache sizes and losses, and file systems before the run", "why_tests_cant": "the runs differ in schedules, cache histories and set orders that a test does not control, and the contents of the output must be right for every description and slice", "anchors": ["bin/des-pizza-cutter:go", "pizza_cutter/des_pizza_cutter/_pizza_cutter.py:make_des_pizza_slices", "pizza_cutter/des_pizza_cutter/_pizza_cutter.py:_coadd_and_write_images", "pizza_cutter/des_pizza_cutter/_pizza_cutter.py:_coadd_single_slice", "pizza_cutter/des_pizza_cutter/_coadd_slices.py:_build_slice_inputs", "pizza_cutter/des_pizza_cutter/_load_info.py:load_objects_into_info"]}
{"id": "C87", "title": "The star catalogue and the geometry of a tile come from the archive to where they are looked for", "statement": "The catalogue path that the preparation of a tile looks up is the path of a file of the right type in the archive whose name starts with the tile and ends with the version; it is found exactly if there is one, the call otherwise fails with RuntimeError, and with one such file the answer does not depend on the order of the rows. A download that returns without an exception has made the directory of the file and has run one rsync command whose last two words are the file in the archive and the place source_dir/archive_path; if the directory cannot be made nothing is copied, and a failed copy is reported. The catalogue path that ends up in the information file of a tile is the place to which the catalogue has been copied. The geometry table is copied to the output only after the query for that tile has succeeded, the temporary directory is always removed, and any failure is reported. False: that the version is matched exactly, that an underscore in a tile name is taken literally, and that paths from the root or with blanks work.", "quantifier": "for all contents and orders of the archive tables, tile names, versions, paths and directories, and all outcomes of the operating system, the database client and the shell commands", "why_tests_cant": "the database, the remote archive and their failures are not available to unit tests, and patterns and path names range over all texts", "anchors": ["pizza_cutter/des_pizza_cutter/_des_info.py:get_gaia_path", "pizza_cutter/des_pizza_cutter/_des_info.py:download_archive_file", "pizza_cutter/des_pizza_cutter/_des_info.py:make_coaddtile_geom_fits", "bin/des-pizza-cutter-prep-tile:main"]}
{"id": "C88", "title": "Cache lookups by WCS and image objects find results for the same object contents", "statement": "Affine WCS objects made from the same numbers are equal and have the same hash; without a hash collision, equal ones are made from the same numbers and map all positions alike. Equality of such objects is an equivalence relation that agrees with the hash. A cached function of an affine WCS gives the answers of the function itself for every sequence of calls, cache clearings and assignments to the attributes of the objects, for every cache size. The same holds for image objects and header WCS objects, which keep their text, as long as nothing is assigned to their attributes; it is false after an assignment. The text of an image object tells apart images with different information, WCS or position offset, so that hashes of texts meet the condition under which the results of a run do not depend on the caches.", "quantifier": "for all numbers, ways of printing numbers faithfully, hash functions, cache sizes, cached functions, and sequences of calls, assignments and clearings", "why_tests_cant": "a test compares a few objects with one hash function; stale or mixed-up entries show only after particular histories of calls, evictions and changes", "anchors": ["pizza_cutter/des_pizza_cutter/_affine_wcs.py:AffineWCS.__repr__", "pizza_cutter/des_pizza_cutter/_affine_wcs.py:AffineWCS.__hash__", "pizza_cutter/des_pizza_cutter/_affine_wcs.py:AffineWCS.__eq__", "pizza_cutter/wcs.py:FastHashingWCS", "pizza_cutter/des_pizza_cutter/_se_image.py:SEImageSlice.__repr__", "pizza_cutter/des_pizza_cutter/_se_image.py:SEImageSlice.__hash__", "pizza_cutter/des_pizza_cutter/_se_image.py:SEImageSlice.__eq__"]}
{"id": "C89", "title": "A point is looked up in the grid cell that covers it", "statement": "The test whether a point lies in a bad cell of a PSF model's grid returns, for every pair of finite double coordinates, the entry of the one cell that covers the point, where the outermost cells extend without limit: the rounding of the quotient of coordinate and cell size never selects a neighbouring cell. Infinite coordinates are answered by the edge cell on their side. NaN coordinates and empty masks raise IndexError.", "quantifier": "for all double coordinates, masks, and cell sizes with cells*size up to 2^53", "why_tests_cant": "the unit test tries five integer points; a point just below a cell boundary is decided by the rounding of a quotient, for every boundary and size", "anchors": ["pizza_cutter/des_pizza_cutter/_se_image.py:_check_point_in_bad_piff_model_mask"]}
{"id": "C90", "title": "A WCS from header cards does not depend on their spelling", "statement": "The header that is handed to galsim has each name once, in upper case, with the value of the last named card of that name; nameless cards are left out and upper case headers are passed on unchanged. Headers that differ only in the case of names and in nameless cards give the same result. A WCS is returned only if it has the class that callers rely on; otherwise galsim's exception or AssertionError is raised.", "quantifier": "for all lists of cards, values, and behaviours of galsim's constructor", "why_tests_cant": "a test uses one header with one spelling", "anchors": ["pizza_cutter/gsutils.py:get_gs_fits_wcs_from_dict"]}
{"id": "C91", "title": "Sums are accurate in whatever order they are added", "statement": "The sums taken of weights, PSF stamps, pixel values and noise of n doubles (np.sum, np.var) are within (n-1)*2**-52 times the sum of the absolute values of the exact sum, in whatever order and grouping the additions are made; if no number is negative the error is at most n*2**-52 of the sum and the result is not less than any of the numbers. numpy's pairwise order is one of these orders: up to seven numbers one after the other, up to 128 in eight running sums, more in two parts whose first has a multiple of eight numbers.", "quantifier": "all lists of doubles of up to 2**40 numbers up to 2**900, all orders and groupings of the additions", "why_tests_cant": "Rounding errors depend on all the bits of all numbers and on the order, which numpy chooses by the layout of the array.", "anchors": ["pizza_cutter/des_pizza_cutter/_coadd_slices.py:_build_slice_inputs", "pizza_cutter/des_pizza_cutter/_coadd_slices.py:_coadd_slice_inputs", "pizza_cutter/des_pizza_cutter/_se_image.py:SEImageSlice.get_psf_image", "pizza_cutter/slice_utils/measure.py:measure_fwhm"]}
{"id": "C92", "title": "Single precision images are coadded and written to single precision accuracy", "statement": "For images of single precision the coadd of n images with positive weights is, at every pixel, a single precision number within (n+1)*2**-22 times the weighted mean of the absolute values of the weighted mean of the resampled values (image, PSF, masked fraction, every noise field); the masks are the bitwise unions; the weight map is, up to (N+6)*2**-23 for N pixels, one over the variance of the coadded noise, and positive; the masked fraction is never negative, so writing it never fails, and exceeds 1 by at most (n+2)*2**-22. Numbers stored as single precision are the nearest ones, monotone, and stay NaN or infinite; single precision images and 32 bit masks are written to the file unchanged, doubles are rounded once. After a completed run, for any schedule and any way in which images are selected, the file holds these numbers at the place of each slice that was asked for, and its weight map is one over the variance of the noise image in the file. For images of doubles the coadd is that of C39 and the work on a slice that of C72.", "quantifier": "all numbers of images up to 2**20, resampled values up to 2**100 in size, weights between 2**-450 and 2**450, all stamp sizes (up to 2**20 pixels for the weight map), all masks", "why_tests_cant": "Each addition rounds to 24 bits; the accumulated error depends on every bit of every image and weight, on their number and order.", "anchors": ["pizza_cutter/des_pizza_cutter/_coadd_slices.py:_coadd_slice_inputs", "pizza_cutter/des_pizza_cutter/_pizza_cutter.py:_write_single_image", "pizza_cutter/des_pizza_cutter/_constants.py:CUTOUT_DTYPES", "pizza_cutter/des_pizza_cutter/_pizza_cutter.py:_coadd_single_slice"]}
{"id": "C93", "title": "Noise images of concurrent workers do not disturb each other or other files", "statement": "However the constructions of memory mapped noise images by several workers are interleaved, and whichever directories are removed and workers killed in between: a worker whose construction returns reads exactly the image it would have made alone, provided no two workers were given the same temporary path. Files that existed before are never written to and disappear only with their directory. Without a directory argument nothing stays on disk once the construction has returned, although the image can still be read; with one, the file stays until the directory is removed. After the directory has been removed no late worker puts a file into it again: it gets an error. A worker left to run in an existing directory finishes. False, with witnesses: tempfile.mktemp only chooses a name, so two workers that get the same one before either has created its file mix up their images; and a killed worker leaves its private directory behind.", "quantifier": "every number of workers, every image, seed and chunk size, every interleaving of their steps with removals of directories and kills, every initial content of the file system", "why_tests_cant": "the interleavings of the steps of several processes and the points at which one is killed or a directory removed cannot be enumerated or forced by a test", "anchors": ["pizza_cutter/memmappednoise.py:MemMappedNoiseImage", "pizza_cutter/des_pizza_cutter/_se_image.py:_get_noise_image_impl"]}
{"id": "C94", "title": "Concurrent runs do not disturb each other's output files", "statement": "However the file operations of several runs of make_des_pizza_slices on one file system are interleaved, and whichever of the other runs are killed: if no file (output, staged compressed file, staged uncompressed file) belongs to two of them and their temporary directories exist, a run that has ended has the result and the files it has when it runs alone, where fpack packs whatever uncompressed file it finds. At every moment, also after kills, an output is what was there before or what the run itself may write (what fpack makes of its own data; after an exception a compressed file left in its work directory; an incomplete copy if tmpdir is on another device), never the data of another run. Files that belong to none of the runs stay as they are. Different base names are enough for this, whatever directories are used; and so are different outputs with a private temporary directory per run, as the command line tool makes them. In particular runs of the command line tool on different slice ranges of one tile, with one output directory and otherwise equal options, can run at the same time whatever temporary directories they have. No run can be blocked by the others. Whatever is left over, a run that is made again alone, in which writing works and fpack leaves a file, ends with its own data at the output. A single run in steps does exactly what the sequential program does. False, with witnesses: two runs with outputs of the same base name in different directories and a shared tmpdir both report success, and one of them has written the data of the other; and of two runs given the same tmpdir that does not exist yet, one can fail with FileExistsError.", "quantifier": "every number of runs, every arguments, contents and outcomes of writing, fpack and validation, every interleaving of their steps, every point at which runs are killed, every initial file system", "why_tests_cant": "the interleavings of the file operations of several processes cannot be enumerated or forced by a test", "anchors": ["pizza_cutter/des_pizza_cutter/_pizza_cutter.py:make_des_pizza_slices", "pizza_cutter/files.py:StagedOutFile", "bin/des-pizza-cutter:go"]}
