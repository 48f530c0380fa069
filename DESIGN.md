# Design

Formal model of beckermr/pizza-cutter in Coq 8.16.1 (Rocq). The model is in
`rocq/theories`. This document says, for each property of `properties.jsonl`,
what is modelled and how it is proved, what the trusted base is, and which
parts of the code are not modelled.

## Approach

* Python functions are total Gallina functions returning `result A`, which is
  `Ok a` or `Raise e`, with one constructor per Python exception class.
* Python ints and numpy integer masks are `Z`; strings are `string`.
* Numpy 2d arrays are records of a shape and a pixel function; statements are
  about pixels inside the shape.
* Floating point code is written once, over a record of operations `FloatOps`.
  It is instantiated with IEEE-754 binary64 (`SpecFloat` of the standard
  library, executable) and with the real numbers `R`. Theorems about control
  flow and masks hold for every instance; algebraic theorems are about `R`
  (exact arithmetic); rounding theorems are about binary64.
* External code (scipy interpolation and rotation, PSF rendering, WCS
  libraries, random generators, fpack, the file validator) enters as an
  arbitrary function argument, so theorems hold whatever it returns.
* Loops are structurally recursive over lists of indices. Unbounded `while`
  loops are fuelled and return `None` when fuel runs out, so that fuel can
  never produce a normal-looking value.

## Plan per property

* **C01 Slices tile the coadd exactly** (`Locate`): IEEE-754 double model of the whole function; the integer specification is proved equal to it by rounding lemmas (Flocq), then tiling by Euclidean division.
* **C02 Slice stamps stay inside the coadd** (`Locate`): corollary of the exact form of the result.
* **C03 Inexact tilings are rejected** (`Locate`): rounding argument: a correctly rounded quotient of integers below 2^53 is an integer iff the division is exact.
* **C04 Weight symmetrization is exact and only removes weight** (`Symmetrize`): functional arrays, rot90 as index map, rotation routine as an arbitrary function.
* **C05 Bit mask symmetrization is exact and monotone** (`Symmetrize`): bitwise reasoning on Z by testbit; loop over 32 bits by induction.
* **C06 Masking becomes rotationally symmetric** (`Symmetrize`): four-fold orbit; a concrete refutation for a single application.
* **C07 Fully masked edges are detected** (`Flag`): boolean reflection; refutation witness for mixed edges.
* **C08 Masked fraction is a correct fraction** (`Flag`): counting lemmas; reals for the quotient.
* **C09 Interpolation neighbours are exactly the nearby good pixels** (`Interp`): loop invariants for the two nested scans.
* **C10 The good-pixel work array never overflows** (`Interp`): counting: at most (2*buff+1)^2-1 good pixels are pushed per bad pixel.
* **C11 Interpolation never touches good pixels** (`Interp`): boolean-mask assignment lemma; interpolant is an arbitrary function.
* **C12 Interpolation ignores the values of bad pixels** (`Interp`): two-run argument over the same model.
* **C13 Interpolation refuses exactly the hopeless images** (`Interp`): case analysis; refutation witness for the unbound variable.
* **C14 Masked-edge copying is consistent** (`Interp`): four edge passes; invariant that good pixels are never overwritten.
* **C15 RA differences are wrapped correctly** (`Wrap`): reals: well-founded loop as a relation / fuel sufficient for every input; IEEE instance for divergence.
* **C16 WCS Jacobian is immune to the RA branch cut** (`Wrap`, `JacobianF64`): reals, branch choice as arbitrary integers; error bounds in double arithmetic for any WCS that is right to a given error up to whole turns.
* **C17 The affine WCS round-trips** (`Affine`): field identities over R; in doubles (`AffineF64`) the error of the map and of the round trip by forward error analysis.
* **C18 Rough sky bounds contain the CCD** (`SkyBounds`): extreme values of an affine map on a rectangle are at the corners, which are grid points. In double arithmetic (`SkyBoundsF64`): the corners of the grid are exact, the least and greatest values are members of the list, and rounding is monotone, so containment follows from the bound on the affine map.
* **C19 The sinc approximant is well defined and accurate** (`Lanczos`): sum of positive quadratics; exact rational evaluation; for the accuracy a rational bound of pi, Taylor bounds of sin around 0, 1, 2, 3 and a polynomial sign test proved sound (`PolyPos`), run in the kernel. In doubles (`LanczosF64`): a Horner lemma with growing powers of 1 + 2^-53 and a perturbed argument, then the products and the quotient.
* **C20 Lanczos resampling is linear and local** (`Lanczos`): sums over windows over R. In doubles (`LanczosF64`): the error of each term, of at most 36 additions, and at integer positions exact zeros for all other pixels. The compiler may reorder the sums and products (fastmath): the same bound is proved for every order and grouping.
* **C21 Lanczos edge flag means no support** (`Lanczos`): integer case analysis.
* **C22 Resampling two images at once equals resampling each** (`Lanczos`): induction over the loops, any arithmetic.
* **C23 Noise images are completely filled** (`Noise`): chunk loop as a sequence of region writes; exact cover by ceil division. The per-epoch image is also computed on doubles and stored as singles, with Flocq's square root (`NoiseF64`), and with single precision weights (`NoiseF4`, `NoiseF32`).
* **C24 Noise images are reproducible** (`Noise`): determinism plus single chunk case.
* **C25 Staging out never loses new data** (`Files`): file system as a finite map, operations as atomic steps, all prefixes.
* **C26 Staging out is idempotent, and replaces the final file non-atomically** (`Files`): histories by induction; refutation witness at a crash point.
* **C27 Staging in never alters or deletes the original** (`Files`): same model.
* **C28 A successful run leaves its own output** (`Run`): composition of fpack oracle, StagedOut and validation; refutation witness with a tmpdir.
* **C29 Slice ranges are validated** (`SliceRange`): string parsing model, range model.
* **C30 Work chunks partition the slices** (`Jobs`): arithmetic of ceil division.
* **C31 Output does not depend on scheduling** (`Sched`): labelled transition system: workers, bounded FIFO queue, main process; invariant; writes to disjoint regions commute.
* **C32 The parallel run never hangs** (`Sched`): progress and a decreasing measure.
* **C33 A slice's result does not depend on which slices are run** (`Jobs`): seed list drawn before the range is applied; two-run equality.
* **C34 Cutouts never overlap in the output file** (`Writer`): region arithmetic.
* **C35 Negative weights or masked fractions are never written** (`Writer`): case analysis.
* **C36 Epoch accounting is complete** (`SliceInputs`): fold over images with arbitrary outcomes of the checks.
* **C37 Only acceptable images enter the coadd** (`SliceInputs`): same; exact flag word.
* **C38 Coadd weights are normalised** (`SliceInputs`): reals; doubles with a rounding error bound (`WeightF64`, `RoundSum`).
* **C39 The coadd is the weighted mean of its inputs** (`Coadd`): reals, induction over inputs; permutation invariance; doubles with a rounding error bound (`CoaddF64`, for the weight map `VarianceF64`, for the sum of the PSF `PsfSumF64`).
* **C40 Interpolated pixels are flagged** (`SliceInputs`): pixel level; refutation witness.
* **C41 Resampled masks come from the nearest pixel** (`Resample`): truncation towards zero versus floor, over R and in doubles; refutation witness.
* **C42 Nearest-pixel mapping of coadd masks** (`Resample`): floor, over R and in doubles with rounding bounds.
* **C43 Slice bounds are square, centred and parity-matched** (`SeImage`): reals with floor, parity on Z; doubles with a rounding error bound.
* **C44 Accepted slices are read completely** (`SeImage`): numpy slice model with negative indices and clipping.
* **C45 Zero-point scaling preserves signal to noise** (`SeImage`): reals, Rpower positivity; doubles with a rounding error bound (`ScaleF64`).
* **C46 Tape-bump masking is idempotent and confined** (`TapeBumps`): bitwise idempotence, rectangles, the complete table.
* **C47 Caching is transparent** (`Cache`): LRU cache as an association list; induction over histories.
* **C48 PSF quality flags** (`Piff`): bits.
* **C49 Flagging of input images only adds flags** (`DesInfo`): records with optional fields.
* **C50 Input consistency check is sound and complete** (`DesInfo`): strings; the nondeterministic set choice is an arbitrary function.
* **C51 Image identifiers are consistent** (`ImageInfo`): induction on lists.
* **C52 FITS header munging** (`LoadInfo`): induction on key list.
* **C53 Coadd PSF stamp geometry** (`PsfImage`): floor over R, doubles with a rounding error bound.
* **C54 PSF images are normalised** (`PsfImage`): sums over R; doubles with a rounding error bound (`StampF64`, and for the kernel sum of the resampled PSF `WholeF64`).
* **C55 FWHM does not depend on flux** (`Fwhm`): reals with an arbitrary erf; in doubles (`FwhmF64`) an error bound for every erf with values in [-1, 1], and bitwise invariance under exact scaling.
* **C56 WCS lookup grids cover the SE image** (`WcsGrid`): integer arithmetic of mgrid. In double arithmetic (`WcsGridF64`): the nodes are half-integers, so exact and distinct; the rounded quotient of numpy has the ceiling of the exact one.
* **C57 Pixel areas** (`WcsGrid`): reals; refutation witness for the half pixel shift. In double arithmetic with an explicit bound, from that of the affine map (`WcsGridF64`); the same for C73.
* **C58 Output names of parallel ranges do not collide** (`Cli`): decimal printing is injective.
* **C59 Effective number of epochs is bounded** (`Coadd`): reals; doubles with a rounding error bound.
* **C60 Hashing of run identifiers is in range** (`Cli`): integer arithmetic; SHA-1 is an arbitrary function.
* **C61 Logging levels cannot be overwritten** (`Cli`): finite sets of names.
* **C62 PSF model failures are detected** (`Piff`): lists of extended reals. On doubles the sort is refined to the sort of the values and the two roundings of an even median are bounded (`MedianF64`).
* **C63 All images of an epoch are resampled alike** (`Resample`): the pipeline of resample is opened up pixel by pixel, over any arithmetic. In doubles (`ResampleF64`): the rounding of the division by the area, the kernel sum of C20 and the final product are bounded together.
* **C64 Slice objects demand their setters** (`Resample`): histories of setter calls by induction.
* **C65 What loading a tile gives and when it fails** (`LoadInfo`): case analysis over arbitrary readers, induction over the sources.
* **C66 Temporary directory and uncompressed file** (`Cli`): case analysis.
* **C67 Resampling a constant image** (`Lanczos`): the value factorises into the sums of the kernel along the axes; these are bounded with certified polynomial pieces. On doubles this follows from the double bound of C20 (`PropFlatF64`).
* **C68 The object data describe the tiling** (`ObjectData`): the rows in double arithmetic against the exact tiling of C01; every centre and start is an exact double; the WCS is any function.
* **C69 Star masks cover the stars of the catalogue** (`Gaia`): pixel by pixel over exact arithmetic; drawing is any function that depends on displacement and radius; faint stars are ignored in any arithmetic. In doubles (`GaiaF64`) the two subtractions move a star by at most 2^-30 pixels in each direction, drawing is any function that is right up to a tolerance, and Horner's rule is bounded step by step.
* **C70 Ordering the slices loses none and keeps neighbours together** (`Order`): any sorting routine, any curve; cells over exact arithmetic, and in doubles (`OrderF64`) because the size of a cell is an exact double and rounding a quotient never passes an integer.
* **C71 Lists of flags in the configuration** (`SingleSlice`): sum against union of bits, by induction with a + b = (a or b) + (a and b).
* **C72 From the single-epoch images to the file** (`SingleSlice`, `ObjectData`, `Writer`, `Sched`): the models of selection, weights, coadd, object data, queues and writing put together; what a completed run leaves in the file at the place of every slice, for every schedule; in reals, and in doubles by joining the error bounds of C38, C39 and C59.
* **C73 Positions of a single-epoch image** (`SeWcs`): image2sky, sky2image, Jacobian and pixel area for every kind of WCS; characterised in any arithmetic, round trips in real arithmetic from those of the WCS, lifted to arrays by induction. In double arithmetic the round trip of an affine WCS with an explicit error bound (`PropSeWcsF64`).
* **C74 Construction of a single-epoch image** (`SeWcs`): choice of WCS, PSF and shape against an inductive description of where they may come from; containment by composition with C18. Containment of the own positions also in double arithmetic (`PropSkyBoundsF64`).
* **C75 Preparation of a tile's information** (`TileInfo`): dictionaries with an explicit value type; the new entry as the old one extended by a literal list of settings; queries are arbitrary functions.
* **C76 Writing of a tile's information file** (`TileInfo`): the command as a list of events and an exception; case analysis over the outcome of every step.
* **C77 Metadata and tile information are kept** (`Metadata`): numpy text columns as a width and code points; reading drops the final zeros; columns by rewriting one assignment after the other.
* **C78 Layout and compression of the image extensions** (`Metadata`): the arguments of every created extension against a literal table; induction over the extra noise images.
* **C79 A whole run** (`Main`): composition of C28 (files), C31–C35 (work under any schedule), C51, C68, C77 and C78.
* **C80 Seeds of a run** (`Jobs`): the seeds are related to an independent list of consecutive draws with their bounds; induction on the number of images.
* **C81 Which images contribute to a slice** (`Epoch`): the loop over the images is modelled with the objects of `SeWcs`, `SeImage`, `PsfImage` and `Piff` and shown to be the rough cut of `SliceInputs` on their answers; what is kept is described by a separate relation, the converse by uniqueness of the box and C74. In doubles (`EpochF64`): positions are located up to a rounding bound, and the box is the one of the located position widened by it.
* **C82 A slice from the pixels to the file** (`Whole`): `SingleSlice` with its image answers, star mask mapping and resampling replaced by `Epoch`, `WcsGrid` and `Resample`; the hypotheses of C72 on these parts are discharged from C81, C56, C57, C63; the tables and the stamp are described by separate relations. In doubles (`WholeF64`) the same chain is composed from the rounding error bounds of C43, C63, C72 and C81, and the star mask is looked up at the position that the table of C56 gives.
* **C83 The command line tool** (`Go`): `go` and `main` on dictionaries, with the loaded objects put into them, composed of the flags of `Piff`, the checks of `DesInfo`, the names of `Cli` and `Main`; what is handed over and what is recorded are separate relations on the dictionaries of the file; the converse uses the equivalence of the checks with C50's description, so it holds for any set order.
* **C84 The history of a process does not matter** (`Process`): every function of a slice again with the thirteen caches as state, compared with `Whole`; an invariant on the caches (every entry is what the function would answer now, masks up to tape bumps) is kept by every call, and two rules (`sees`, `follows`) carry it through the whole slice; induction over the steps of the process.
* **C85 Caches and parallel runs together** (`Pool`): the transition system of `Sched` where each worker has a memory that it carries from slice to slice, can lose entries between chunks and starts with that of the main process; erasing the memories is a bisimulation with `Sched` as long as all memories satisfy the invariant of C84, so C31, C32, C72 and C82 hold for these runs.
* **C86 The whole command** (`Command`): the job of a run (images, options, tile) is read off the loaded dictionaries and the configuration, the work on the slices is the relation of all runs of `Pool` on that job, and `go` of C83 is closed with it; the conditions of C85 on ids and masks are discharged from the checks of the description (`check_info` compares file names that contain the CCD), so C83, C85, C34 and C79 together say what is in the file and that it depends on the two input files only.
* **C87 Archive access** (`Archive`): the SQL pattern as a function on strings, the tables as lists of rows, the file system and the shell as effects that may fail; the query is characterised by an existential on strings, the rsync command by the words a shell makes of it, paths by the names on them; failure cases by analysis of the trace of effects; joined with `prep_tile` of C76 for the recorded path.
* **C88 Objects as cache keys** (`Keys`): texts and hashes as functions, the printing of numbers and the hash of texts as parameters; lru_cache over a heap of objects that can be changed, with the hash stored in the entry as Python does; transparency by an invariant on the entries; joined with C84 and C86 by discharging their condition on hashes.
* **C89 Grid cell of a point** (`PiffCell`): the rounded quotient, floor, clip and integer conversion in doubles, with infinities and NaN; the floor of the rounded quotient is that of the exact one because neighbouring doubles below a multiple of the cell size are farther from it, relatively, than half the spacing below the quotient.
* **C90 WCS from header cards** (`PiffCell`): the dictionary comprehension as a fold; galsim's constructor and class test as parameters; values compared with an independent "last card of that name" lookup.
* **C91 Sums are accurate in whatever order they are added** (`Lib/Floats`: `fsum`): numpy's pairwise summation is modelled and used for every `np.sum` and `np.var` of floats; the rounding error bounds are proved by induction over an arbitrary tree of additions.
* **C92 Single precision images are coadded and written to single precision accuracy** (`CoaddF4`, `SliceF4`, `Lib/Float32`): the accumulators have the dtype of the images, so every sum is stored as a binary32 number. Conversion is Flocq's rounding to 24 bits; the sums by induction over the images, single precision operations by the double rounding theorems of Flocq, the variance by induction over any tree of additions. The cast on writing is the dtype table of the file. For the file of a run the selection and preparation of images is an arbitrary function.
* **C93 Noise images of concurrent workers** (`NoiseFiles`): the constructor is cut at the points where another process can act; a transition system over directories, names, inodes and the progress of every worker, with removal of directories and kills as events. Invariants by induction over arbitrary schedules; that the images are right refers to the sequential `noise_image` of C23. The equal-names race of `tempfile.mktemp` and the directory a killed worker leaves are refutations with schedules.
* **C94 Concurrent runs** (`Runs`): the file operations and tests of `make_slices_files` (C25, C28) as a tree of steps, one tree per run, all on one file system; a schedule is a list of run numbers. Invariant: every run is at a point that it also reaches alone, in a file system that agrees on the run's own files. The tree run alone is shown equal to the sequential model. Shared temporary paths and the unprotected `os.makedirs` of the temporary directory are refutations with schedules. The names that the command line tool gives to ranges of slices (C58) are composed with this. The noise files of a run, which can be in the same directory, are C93.

## Trusted base

* Coq's kernel (8.16.1, with its `vm_compute` conversion).
* The axioms listed below, all of the standard library. They come with the
  standard library's real numbers (`Reals`) and Flocq's use of them; no axiom is
  declared in this development.
* That the definitions in `rocq/theories/Model` say what the Python code does.
  Each carries the file and lines it models. The external functions named in
  "Not modelled" are arguments of the definitions, so nothing is assumed about
  them except what a theorem writes as a hypothesis.
* That the statements in `rocq/theories/Props`, with the vocabulary of
  `rocq/theories/Spec`, say what `properties.jsonl` says.

`Lib` holds the semantics of the Python and numpy operations used by the model
(exceptions, arrays, slices, strings, dictionaries, number classes), `Proofs`
the proofs.

### What Print Assumptions lists

Closed under the global context (315 theorems):

C04_symmetrize_weight_angle, C04_symmetrize_weight_exact, C04_symmetrize_weight_nonsquare, C05_symmetrize_bmask_angle, C05_symmetrize_bmask_exact, C05_symmetrize_bmask_monotone, C05_symmetrize_bmask_nonsquare, C06_one_application_not_symmetric, C06_three_applications_symmetric, C07_full_edge_detected, C07_mixed_edge_not_detected, C07_slice_has_flags, C08_masked_fraction_everything_ignored, C08_masked_fraction_ignores_ignored, C09_support_is_nearby_good_pixels, C10_work_arrays_suffice, C11_image_and_noises_interpolated_alike, C11_interpolation_keeps_good_pixels, C12_bad_values_ignored_image_and_noises, C12_bad_values_ignored_one_image, C13_fill_without_isolated_pixels_fails, C13_nothing_bad, C13_otherwise_returns_image_and_noises, C13_otherwise_returns_one_image, C13_refuses_exactly_hopeless_image_and_noises, C13_refuses_exactly_hopeless_one_image, C14_edge_copy_consistent, C14_too_small_fails, C15_arrays_elementwise, C15_nonfinite_unchanged, C19_double_zeros, C20_integer_positions_need_finite_neighbours, C20_local, C20_positions_are_independent, C20_succeeds_up_to_size_3, C22_two_accepts_any_size, C22_two_at_once, C23_every_pixel_has_its_own_draw, C23_zero_chunk_size, C24_chunk_size_irrelevant_for_full_width_chunks, C24_narrow_chunks_change_the_image, C24_reproducible, C25_arrives, C25_no_loss_at_any_crash_point, C25_nothing_else, C25_paths, C26_done_forever, C26_incomplete_visible, C26_missing_file, C26_not_atomic, C27_cleanup, C27_copy_is_complete, C27_missing_original, C27_no_staging, C27_original_never_changed, C27_other_file_removed_refuted, C28_exception_propagates, C28_outcome, C28_own_output, C28_stale_output_refuted, C28_uncompressed_file, C29_bad_string, C29_negative_step_past_the_end, C29_negative_step_refuted, C29_none_means_all, C29_not_a_number, C29_only_valid_slices, C29_others, C29_range, C29_range_members, C29_range_too_long, C29_string, C30_bad_n_chunks, C30_disjoint, C30_partition, C31_all_complete, C31_same_outcome, C31_same_output, C32_applies_to_runs, C32_bounded, C32_ends, C32_failures_are_reported, C32_killed_worker_can_hang, C32_negative_n_chunks_hangs, C32_no_deadlock, C33_plan_exists, C33_same_results, C33_same_seeds, C33_seed_is_the_ith_draw, C34_contents, C34_extensions, C34_regions_disjoint, C34_run_contents, C35_negative_raises, C35_never_negative, C35_otherwise_exact, C36_every_epoch_recorded_once, C36_image_ids_recorded, C37_masks_symmetrised_once, C37_masks_symmetrised_with_angles, C37_selection_does_not_fail, C37_used_images_acceptable, C37_verdicts_exact, C38_unknown_weighting_fails, C39_coadd_exact, C39_coadd_succeeds, C40_copied_edge_pixel_refuted, C40_pixel_mask_exact, C40_unmarked_pixels_unchanged_f64, C40_zero_weight_unchanged_pixel_refuted, C41_just_below_one_half_refuted, C41_unrepresentable_is_outside, C42_needs_a_slice, C42_unrepresentable_is_outside, C44_accepted_bounds_are_inside, C44_accepted_slices_are_read_completely, C44_accepted_slices_can_be_read, C44_slices_are_square, C44_unchecked_bounds_lose_pixels, C46_cached_reads_agree_with_fresh_reads, C46_first_row_and_column_are_missed, C46_first_row_and_column_not_masked, C46_idempotent, C46_mixed_use_refuted, C46_tape_bump_layout, C46_tape_bumps, C47_cache_is_bounded, C47_caching_is_transparent, C47_hash_collision_refuted, C48_bits_of_the_flags, C48_cuts_can_be_switched_off, C48_nan_statistics_pass, C48_range, C49_flags_are_only_added, C49_flags_that_are_due, C49_idempotent, C49_section_is_needed, C50_accepts_exactly_the_consistent_tiles, C50_no_coadd_file, C50_order_does_not_matter, C50_reports_inconsistency, C50_tile_and_band_are_unique, C50_two_tiles_and_absent_key, C51_extension_kept_refuted, C51_ids, C51_image_table, C51_no_sources, C51_table_or_assertion, C51_wcs_errors, C52_absent, C52_keys, C52_lower_case, C52_values, C53_just_below_half_refuted, C54_bad_stamps_are_refused, C54_needs_a_psf, C56_entries, C56_table_exists, C56_zero_step, C57_area_table, C57_table_exists, C58_bad_ranges_are_refused, C58_fits_paths_are_used, C58_name, C58_names_are_equal_iff_ranges_are, C58_tags_are_distinguished_refuted, C60_command, C60_seed_in_range, C61_adds_exactly, C61_number_is_an_attribute_refuted, C61_numbers_are_protected_refuted, C61_second_call_raises, C61_succeeds_iff_free, C62_flag_of_set_psf, C62_no_samples, C62_not_finite_is_bad, C63_resampling_succeeds, C64_interpolated_images, C64_interpolation_needs_a_slice, C64_masks_are_of_the_current_slice_refuted, C64_setters_are_required, C65_errors, C65_loaded, C65_psf_errors_are_not_fatal, C66_temporary_directory, C66_uncompressed_file_is_kept, C68_width_from_the_header, C69_catalogue_positions, C69_faint_stars_ignored, C70_order_fails_only_for_a_reason, C70_order_is_valid, C70_order_permutes, C70_order_succeeds, C71_images_rejected_by_list, C71_lists_of_flags, C71_repeated_flag_refuted, C72_file_contents, C72_results_are_labelled, C72_shape_needed, C73_answer_shape, C73_arrays_elementwise, C73_bad_arguments, C73_bad_wcs, C73_jacobian, C73_jacobian_one_position, C73_position_to_sky, C73_sky_to_position, C74_constructed, C74_piff_and_pixmappy_belong_together, C74_unknown_psf_name, C74_unknown_wcs_name, C75_coadd_entry, C75_coadd_entry_values, C75_idempotent, C75_no_campaign, C75_recorded_scale_is_applied, C75_source_entry, C75_source_needs_keys, C75_source_succeeds, C75_whole_tile, C76_campaign_needed, C76_clean, C76_clean_needs_stars_refuted, C76_complete_file_or_exception, C76_file_name, C76_file_needs_the_directory, C76_file_opened_only_after_checks, C76_files_are_distinct, C76_no_exception_means_written, C76_succeeds, C77_outcome, C77_texts_recorded_in_full, C77_tile_information_kept, C77_zero_point, C78_dither_seed, C78_extensions, C78_keywords, C78_names_are_distinct, C78_one_tile_per_slice, C79_names_are_distinct, C79_output, C79_shape_is_optional_refuted, C79_succeeds, C79_unusable_input_changes_nothing, C80_seeds_are_stable, C80_seeds_drawn_in_order, C80_seeds_in_range, C81_answers_of_the_images, C81_flagged_images_are_not_touched, C81_images_are_examined_one_by_one, C81_tested_model_is_drawn, C83_changes_only_the_output, C83_prepared_tile_is_accepted, C83_recorded, C83_temporary_directory, C83_unusable_input_changes_nothing, C83_what_a_run_works_with, C84_needs_hashes_refuted, C84_needs_own_masks_refuted, C84_squares_float, C86_hash_of_the_id, C86_images_meet_conditions, C86_one_process, C86_what_the_slices_are_made_from, C87_blank_refuted, C87_catalogue_of_the_tile, C87_download, C87_download_fails, C87_found_if_there, C87_geometry_query, C87_geometry_table, C87_only_one, C87_recorded_catalogue, C87_rooted_path_refuted, C87_tile_refuted, C87_version_refuted, C88_affine_keys, C88_assignment_refuted, C88_equal_objects, C88_equality, C88_hashes_of_a_run, C88_image_information, C88_image_texts, C88_kept_keys, C89_not_a_number, C90_header_contents, C90_result, C90_spelling_is_irrelevant, C90_upper_case_headers_unchanged, C91_numpy_order, C91_orders, C92_double_images, C92_double_slices, C92_file_contents, C92_masks_fit, C92_masks_written, C93_a_removed_directory_stays_removed, C93_a_worker_finishes, C93_equal_names_mix_images_refuted, C93_file_stays_until_the_directory_goes, C93_killed_worker_leaves_its_directory_refuted, C93_nothing_is_left_without_a_directory, C93_other_files_are_left_alone, C93_workers_do_not_disturb_each_other, C94_a_rerun_repairs, C94_a_run_can_end, C94_a_single_run_is_the_program, C94_different_names_are_separate, C94_new_tmpdir_raises_refuted, C94_other_files_are_left_alone, C94_output_at_every_moment, C94_parallel_ranges, C94_private_tmpdirs_are_separate, C94_separate_runs_do_as_alone, C94_shared_tmpdir_mixes_the_outputs_refuted.

With `FunctionalExtensionality.functional_extensionality_dep` (15 theorems):

C84_answers, C84_history_does_not_matter, C84_processes_agree, C85_all_complete, C85_bounded, C85_caches_change_nothing, C85_caches_hide_no_errors, C85_ends, C85_same_outcome, C85_same_output, C86_all_complete, C86_outcomes, C86_same_file, C86_slices_in_file, C86_ways_agree.

With `ClassicalDedekindReals.sig_forall_dec`, `FunctionalExtensionality.functional_extensionality_dep` (7 theorems):

C15_wrapped_is_functional, C20_kernel_sum_is_unique, C21_edge_iff_no_support_double, C21_truncated_kernel_is_not_flagged, C55_default, C82_psf_sums_to_one, C82_psf_sums_to_one_double.

With `ClassicalDedekindReals.sig_forall_dec`, `ClassicalDedekindReals.sig_not_dec`, `FunctionalExtensionality.functional_extensionality_dep` (95 theorems):

C15_wrapped_exact_arithmetic, C16_inversion_residual_ignores_branch, C16_inversion_residual_zero_iff, C16_jacobian_exact_for_affine_maps, C16_jacobian_ignores_branch, C17_jacobian_is_derivative, C17_maps_affinely, C17_origin, C17_rejects_exactly_singular, C17_round_trips, C18_bounds_are_padded_bounding_box, C18_corners_are_contained, C18_pixel_edges_need_the_buffer, C18_positions_on_the_image_are_contained, C19_denominator_positive, C19_even, C19_not_exactly_one_at_zero, C19_positive_near_zero, C19_zeros, C20_integer_positions, C20_linear, C20_shift_covariant, C20_value_is_the_kernel_sum, C21_edge_iff_no_support, C23_epoch_noise, C23_fill_weight, C39_coadd_between_inputs, C39_coadd_is_weighted_mean, C39_coadd_order_independent, C39_masked_fraction_in_unit_interval, C41_masks_for_all_positions, C41_masks_of_the_nearest_pixel, C41_position_outside_gets_first_row_refuted, C42_nearest_coadd_pixel, C43_not_smaller_than_the_box, C43_slice_bounds, C43_slice_bounds_unique, C53_coadd_centre_within_half_a_pixel, C53_coadd_even_sizes_are_refused, C53_coadd_layout, C53_even_stamps_are_refused, C53_stamps_are_centred, C54_psf_images, C54_psf_images_exist, C54_resampled_psf, C54_stored_psf, C55_at_most_the_image, C55_empty, C55_flux_scale, C55_pixel_order, C55_positive, C55_wider_images_are_wider, C55_width, C56_forward_at_the_nodes, C56_grid_covers_the_image, C56_inverse_at_the_nodes, C56_positions, C57_affine_area, C57_area_nonnegative, C57_celestial_area, C57_flat_area, C57_lookup_at_the_node_refuted, C57_lookup_is_half_a_pixel_off, C59_effective_epochs_bounded, C62_far_from_the_median_is_bad, C62_order_does_not_matter, C63_edge_pixels_are_zero, C63_same_kernel_for_all_images, C67_constant_images, C67_constant_not_preserved, C67_no_amplification, C69_mask_is_the_stars, C69_overlapping_slices_agree, C70_cells_stay_together, C70_one_cell_double, C72_star_mask, C73_affine_jacobian_is_derivative, C73_affine_pixel_area, C73_affine_undoes, C73_pixel_area_is, C73_round_trip_from_image, C73_round_trip_from_sky, C74_construction_succeeds, C74_corners_contained, C74_flat_galsim_refused, C74_own_positions_contained, C81_fitting_images_are_kept, C81_inputs_can_be_built, C81_kept_images, C81_kept_slices_are_complete, C81_selection_succeeds, C81_tested_model_is_drawn_refuted, C82_stars_are_not_counted, C84_squares_real, C91_exact.

With `ClassicalDedekindReals.sig_forall_dec`, `ClassicalDedekindReals.sig_not_dec`, `Classical_Prop.classic`, `FunctionalExtensionality.functional_extensionality_dep` (89 theorems):

C01_slices_tile_coadd, C02_stamps_inside_coadd, C03_inexact_tilings_rejected, C08_masked_fraction, C08_masked_fraction_grows_with_flags, C15_double_exact, C15_double_range, C15_double_terminates_iff, C16_inversion_residual_double, C16_inversion_residual_zero_double, C16_jacobian_double, C16_jacobian_of_affine_maps_double, C17_double_rejection, C17_round_trip_double, C18_positions_on_the_image_are_contained_double, C19_accuracy, C19_accuracy_double, C19_kernel_accuracy, C19_kernel_accuracy_double, C20_any_order_double, C20_integer_positions_double, C20_source_order_double, C20_value_is_the_kernel_sum_double, C20_value_is_the_true_kernel_sum_double, C23_epoch_noise_double, C23_epoch_noise_single, C38_weights_normalised, C38_weights_normalised_double, C39_coadd_is_weighted_mean_double, C39_masked_fraction_double, C39_psf_sums_to_one_double, C41_masks_of_the_nearest_pixel_double, C42_nearest_coadd_pixel_double, C43_not_smaller_than_the_box_double, C43_slice_bounds_double, C45_common_zero_point, C45_scale_is_positive, C45_signal_to_noise_is_kept, C45_signal_to_noise_is_kept_double, C53_coadd_layout_double, C53_stamps_are_centred_double, C54_psf_images_double, C54_resampled_psf_double, C54_resampled_psf_kernel_double, C55_flux_scale_double, C55_width_double, C56_forward_at_the_nodes_double, C56_grid_covers_the_image_double, C56_number_of_lines_double, C56_positions_double, C57_affine_area_double, C59_effective_epochs_double, C62_far_from_the_median_is_bad_double, C62_order_does_not_matter_double, C63_edge_pixels_are_zero_double, C63_same_kernel_for_all_images_double, C67_constant_images_double, C67_constant_not_preserved_double, C67_no_amplification_double, C68_fails_only_for_a_reason, C68_object_data_describe_the_slices, C68_succeeds, C69_mask_is_the_stars_double, C69_overlapping_slices_agree_double, C69_radius_polynomial_double, C70_cells_stay_together_double, C72_file_is_weighted_mean, C72_file_is_weighted_mean_double, C72_slice_succeeds, C73_affine_pixel_area_double, C73_affine_round_trip_double, C74_own_positions_contained_double, C81_kept_images_double, C81_kept_slices_are_complete_double, C82_file_from_the_pixels, C82_file_from_the_pixels_double, C82_slice_succeeds, C82_stars_are_not_counted_double, C89_answer_exists, C89_cell_of_point, C89_infinite_points, C91_any_order_double, C92_arithmetic, C92_coadd_single, C92_conversion, C92_file_single, C92_masked_fraction, C92_special_values, C92_written.


## What is modelled

| File of /repo | Modelled | In |
| --- | --- | --- |
| slice_utils/locate.py | all | Model/Locate.v |
| slice_utils/symmetrize.py | all | Model/Symmetrize.v |
| slice_utils/flag.py | all | Model/Flag.v |
| slice_utils/interpolate.py | all | Model/Interp.v |
| slice_utils/measure.py | all | Model/Fwhm.v |
| slice_utils/procflags.py, des_pizza_cutter/_constants.py | the flag values and zero point used by the functions below | with these functions |
| wcs.py | wrap_ra_diff, get_jacobian, _lonlatdiff | Model/Wrap.v |
| coadding/_sinc.py, _lanczos.py | sinc_pade, lanczos_resample, lanczos_resample_two | Model/Lanczos.v |
| coadding/_wcs_utils.py | all | Model/WcsGrid.v |
| memmappednoise.py | all | Model/Noise.v, NoiseF4.v, NoiseFiles.v |
| files.py | StagedOutFile, StagedInFile and helpers, get_des_info_file | Model/Files.v, Model/Runs.v, Model/TileInfo.v |
| des_pizza_cutter/_affine_wcs.py | all | Model/Affine.v |
| des_pizza_cutter/_sky_bounds.py | all | Model/SkyBounds.v |
| des_pizza_cutter/_tape_bumps.py | the whole table | Model/TapeBumps.v |
| des_pizza_cutter/_piff_tools.py | compute_piff_flags; get_piff_psf_info from the rows of the query; the cache of get_piff_psf | Model/Piff.v, Model/TileInfo.v, Model/Cache.v |
| des_pizza_cutter/_des_info.py | flag_data_in_info, check_info, add_extra_des_coadd_tile_info, get_coaddtile_geom from the rows of the query | Model/Piff.v, Model/DesInfo.v, Model/TileInfo.v |
| des_pizza_cutter/_des_info.py | get_gaia_path, download_archive_file, make_coaddtile_geom_fits | Model/Archive.v |
| des_pizza_cutter/_affine_wcs.py, _se_image.py, wcs.py | texts, hashes and equality of objects, lru_cache with them as arguments; pprint.pformat and the printing of numbers are parameters | Model/Keys.v |
| des_pizza_cutter/_se_image.py (367-370), gsutils.py | the grid cell of a point; header cards to galsim (a parameter) | Model/PiffCell.v |
| des_pizza_cutter/_load_info.py | load_objects_into_info, _munge_fits_header | Model/LoadInfo.v |
| des_pizza_cutter/_coadd_slices.py | all | Model/SliceInputs.v, Epoch.v, Coadd.v; Whole.v puts the parts together |
| des_pizza_cutter/_coadd_slices.py (553-710), _pizza_cutter.py (735-746), _constants.py (33-42) | the coadd with arrays of dtype f4, the dtypes of the extensions | Model/CoaddF4.v, Lib/Float32.v |
| des_pizza_cutter/_se_image.py | constructor, positions, Jacobian and areas, reading of slices, noise images, tape bumps, slice bounds, PSF images and stamps, PSF failure test, resampling, nearest-pixel mapping, WCS tables and areas, the caches | Model/SeImage.v, SeWcs.v, PsfImage.v, Piff.v, Resample.v, WcsGrid.v, Cache.v, TapeBumps.v |
| des_pizza_cutter/_pizza_cutter.py | slice ranges, chunks, seeds, the worker pool and queue, writing of cutouts, counters, epochs table, image table, object data, width of the coadd, PSF layout, star masks, order of the slices, the work on one slice, metadata, compression keywords, fpack, staging and validation, make_des_pizza_slices as a whole | Model/Main.v, Metadata.v, SliceRange.v, Jobs.v, Sched.v, Writer.v, Files.v, ObjectData.v, SliceInputs.v, Coadd.v, ImageInfo.v, PsfImage.v, Gaia.v, Order.v, SingleSlice.v, Cli.v |
| __init__.py | addLoggingLevel | Model/Cli.v |
| des_pizza_cutter/_se_image.py, _coadd_slices.py, _pizza_cutter.py | all caches of a worker process and their clearing, for the work on one slice after the other | Model/Process.v |
| des_pizza_cutter/_pizza_cutter.py | the pool of worker processes with their caches, started as copies of the main process | Model/Pool.v |
| des_pizza_cutter/_pizza_cutter.py, des_pizza_cutter/_coadd_slices.py | the job of a run read off the dictionaries and the configuration (keys read once, so that a missing one is noticed even without slices), the possible outcomes of the work on the slices | Model/Command.v |
| bin/des-pizza-cutter-prep-tile | order of the steps and their effects | Model/TileInfo.v |
| bin/des-pizza-cutter | output paths, temporary directory, removal of the uncompressed file | Model/Cli.v |
| bin/des-pizza-cutter | go and main, with load_objects_into_info(skip_se=True), flag_data_in_info and check_info on the dictionaries | Model/Go.v |

Simplifications (also said at the definitions): arrays hold 64 bit or exact
numbers, not float32, except in Model/CoaddF4.v, where the accumulators of the coadd,
the weight map and the pixels of the file are single precision (C92); `np.sum` is numpy's pairwise summation of a contiguous array
(`Lib/Floats.v`; C91 bounds every order of additions);
NaN propagation of `np.max` is modelled only where a theorem needs it; log
messages and progress bars are left out; shapes that numpy would broadcast are
treated as errors; the text of exceptions is not modelled, their class is.

## Not modelled

* scipy, numpy's random generators, galsim, piff, pixmappy, esutil's WCS, fitsio,
  fpack, meds.validate_meds and meds.reject_outliers, metadetect's star masks,
  hilbertcurve: arbitrary functions.
* The data base, rsync, the shell beyond the words of a command, the programs that
  `bin/des-pizza-cutter-prep-tile` calls from desmeds, yaml and argparse.
* `scripts/` and `des_pizza_cutter/integration_test/` (tools and test data).

## Findings

Claims that a user could expect and that are false of the code. Each is proved
with a witness where a theorem name is given.

* `n_chunks = 0` is a ZeroDivisionError and a negative `n_chunks` with several
  jobs waits forever for results; a killed worker also leaves the run waiting.
* A `range` with a negative step passes the validation of slice ranges (C29); a
  list is an AttributeError.
* A flag that is listed twice in the configuration selects another flag
  (C71_repeated_flag_refuted).
* NaN weights pass the test for negative values and are written.
* Replacing the final file in `StagedOutFile` is not atomic (C26); with a
  temporary directory a stale `.fz` file survives a failing fpack and is
  validated instead (C28). `StagedInFile` removes a file that somebody else put
  at its temporary path.
* `tempfile.mktemp` does not create the file it names: two workers that are given
  the same name read the same image (C93_equal_names_mix_images_refuted). A killed
  worker leaves its private directory
  (C93_killed_worker_leaves_its_directory_refuted).
* `StagedOutFile` stages under the base name of the output only. Two runs of
  make_des_pizza_slices whose outputs have the same base name in different directories,
  called with one tmpdir, write the same temporary files: both can report success although
  one has the data of the other (C94_shared_tmpdir_mixes_the_outputs_refuted). The command
  line tool is safe: it makes a new directory for every run that has a tmpdir
  (C66, C94_private_tmpdirs_are_separate).
* `StagedOutFile` makes a missing temporary directory with a test and an unprotected
  `os.makedirs`, although `try_makedir` of the same file allows for this race: one of two
  callers that start together can fail with FileExistsError (C94_new_tmpdir_raises_refuted).
  This, too, needs a caller other than the command line tool.
* If all candidate images of a slice have bad PSF models they leave no epoch
  records.
* Zero-weight pixels that interpolation leaves unchanged are not flagged, nor are
  edge pixels copied from an equal neighbour (C40).
* With `max_masked_fraction > 1`, copied edges and no positive weight, noise
  interpolation is a ValueError.
* The tape bump table is one-indexed but applied zero-indexed (C46); masking
  changes the cached mask, so an object without tape bump masking can see it
  (C46_mixed_use_refuted).
* Cache keys are compared by hash of their text (C47_hash_collision_refuted); a
  collision, or a mask file that two CCDs share with tape bumps, makes the answer
  for a slice depend on the slices before it (C84_needs_hashes_refuted,
  C84_needs_own_masks_refuted). With arrays in place of paths, tape bumps are
  written into the caller's mask array.
* The piff test examines the model of the piff file also when another piff model is
  drawn, for instance one loaded by the caller (C81_tested_model_is_drawn_refuted).
* Resampled masks: positions between -1.5 and -0.5 are taken for row or column 0
  (C41_position_outside_gets_first_row_refuted). `pmask` of an older slice is
  kept by set_slice (C64_masks_are_of_the_current_slice_refuted).
* A double just below 1/2 rounds to pixel 1 (C53_just_below_half_refuted,
  C41_just_below_one_half_refuted).
* NaN PSF statistics pass all cuts (C48_nan_statistics_pass); flagging needs the
  section single_epoch even without ignored CCDs (C49_section_is_needed).
* check_info is a KeyError, not a RuntimeError, without any coadd path and with
  two tiles and an absent key (C50_no_coadd_file, C50_two_tiles_and_absent_key).
* The image table cannot be made without sources, and extensions are cut to
  three characters (C51_extension_kept_refuted).
* The pixel areas are tabulated half a pixel away from where they are computed
  (C57_lookup_at_the_node_refuted); the table needs an image larger than twice
  the step (C57_table_exists).
* Tag and configuration names can collide (C58_tags_are_distinguished_refuted);
  a `.fits` output path ignores the slice range.
* addLoggingLevel: a lower case level name loses its number
  (C61_number_is_an_attribute_refuted), an existing number is taken over
  (C61_numbers_are_protected_refuted).
* No image can be made with a flat galsim WCS, so the branches for one are dead
  (C74_flat_galsim_refused).
* The preparation command writes the information file in place, so a failing dump
  truncates an older one; it needs a Piff campaign though the preparation does
  not, and fails only after the downloads (C76_campaign_needed); cleaning needs
  the star catalogue to be known (C76_clean_needs_stars_refuted).
* The star catalogue is found by a pattern: version v1 also finds dev1
  (C87_version_refuted), an underscore in a tile name matches any character
  (C87_tile_refuted). An archive path from the root or a directory with a blank
  breaks the download (C87_rooted_path_refuted, C87_blank_refuted).
* Image and header WCS objects keep their text, so that caches do not notice
  assignments to their attributes (C88_assignment_refuted); nothing in the code makes
  such assignments.
* The width of the coadd is looked up in its file if its shape is not recorded,
  but the run needs the shape later and always fails without it
  (C79_shape_is_optional_refuted).
* fill_isolated_with_noise with nothing isolated is an UnboundLocalError (C13).
* sinc_pade(0) is not exactly 1 as documented (C19_not_exactly_one_at_zero).
* The Lanczos kernel is not normalised: a constant image loses more than 1.1 percent of its level half way between pixels (C67_constant_not_preserved).
* At integer positions the resampled value is the pixel only if the neighbours under the kernel are finite: a NaN neighbour makes it NaN although its kernel weight is zero (C20_integer_positions_need_finite_neighbours).

## Wrong programs

`seeded/LOG.jsonl` has one line per edit of the model that was tried in a scratch copy.
After an edit the copy is rebuilt; a proof that no longer goes through is taken out and
the build goes on. `theorems_failed` lists the theorems that are or use a proof taken out.
Edits that do not type check decide nothing; nearly all of them are left out. Limits of this method:

* A proof can fail although its statement still holds, because its script follows the
  program closely. So a failed theorem is evidence that the edit is noticed, not proof that
  the statement is false of the edited program.
* For most of the edits the build was stopped at the first failure that reaches a theorem,
  so that further theorems may fail too.
* Edits after which no theorem fails have a note that says why: mostly the edited program
  is equivalent to the original, or the theorem was tightened (`theorems_tightened`) and the
  edit tried again.
