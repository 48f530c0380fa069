(** Model of [_coadd_single_slice], _pizza_cutter.py:296-414: the parts of the
    other models put together for one slice.

    The coadd WCS, the random generator, the answers of the single-epoch images
    (Model/SeImage.v, Model/PsfImage.v, Model/Piff.v), the nearest-pixel mapping
    of the star mask and the resampling (Model/Resample.v) and the external
    libraries are collected in a record. Log messages are left out. *)
From Coq Require Import ZArith List Bool String.
From Coq Require Import List.
From Verif Require Import Lib.Base Lib.Floats Model.Jobs Model.Gaia Model.ObjectData Model.PsfImage
  Model.SliceInputs Model.Coadd Model.Writer.
Import ListNotations.
Open Scope list_scope.
Open Scope Z_scope.

(** [sum(l)] of a list of flags, _pizza_cutter.py:353-356. *)
Definition flag_sum (l : list Z) : Z := fold_left Z.add l 0.

Section SingleSlice.
Context {F : Type} {FO : FloatOps F} {RNG : Type}.

(** Values of pixels of the extensions. *)
Inductive pixel : Type :=
| PF (x : F)
| PI (z : Z).

Record externals := mkext {
  x_sky2image : F -> F -> result (F * F);
  x_image2sky : F -> F -> result (F * F);
  x_random_state : Z -> RNG;
  (* what the single-epoch images of the tile answer for a slice: seeds of the
     images, ra, dec, ra_psf, dec_psf, box_size *)
  x_sources : list src_seeds -> F -> F -> F -> F -> Z -> list (@se_source F);
  (* map_image_by_nearest_pixel of the star mask: mask, start_row, start_col *)
  x_map_mask : img bool -> F -> F -> @se_slice F -> result (img bool);
  (* resample: start_row, start_col, box_size, psf_start_row, psf_start_col,
     psf_box_size, image_shape *)
  x_resample : F -> F -> Z -> F -> F -> Z -> Z * Z -> @used_slice F -> result (@resampled F);
  x_rotate : F -> img F -> img F;
  x_normal : RNG -> nat -> F -> list F * RNG;
  x_normal2 : RNG -> Z -> Z -> (Z -> Z -> F) * RNG;
  x_interpolator : list (Z * Z) -> list F -> result (Z * Z -> F);
  x_median : list F -> F;
  x_measure_fwhm : img F -> F;
  x_outliers : list (img F) -> list (img F) -> nat -> (Z -> Z -> F) * (Z -> Z -> F);
  x_pow10 : F -> F;
  x_to_f4 : F -> F;
  x_make_foreground_bmask : list (F * F * F) -> Z -> bool -> result (img Z)
}.
Variable ext : externals.

(** single_epoch_config["gaia_star_masks"]. *)
Record gaia_config := mkgaia {
  gc_max_g_mag : F;
  gc_poly_coeffs : list F;
  gc_symmetrize : bool
}.

(** The entries of single_epoch_config that are used here; those that only go
    to the single-epoch images are part of [x_sources]. *)
Record se_config := mkseconfig {
  sc_gaia_star_masks : option gaia_config;
  sc_reject_outliers : bool;
  sc_symmetrize_masking : @symmetrize_option F;
  sc_copy_masked_edges : bool;
  sc_noise_interp_flags : list Z;
  sc_spline_interp_flags : list Z;
  sc_bad_image_flags : list Z;
  sc_max_masked_fraction : F
}.

(** What the slice needs of [info]: the catalogue behind 'gaia_stars_file' and
    'image_shape', both optional, and 'position_offset'. *)
Record tile_info := mktile {
  ti_gaia_stars : option (list (@star F));
  ti_image_shape : option (Z * Z);
  ti_position_offset : Z
}.

(** _pizza_cutter.py:346-358. *)
Definition slice_config (sc : se_config) (coadding_weight : string) : @config F :=
  mkconfig (sc_reject_outliers sc) (sc_symmetrize_masking sc) coadding_weight
    (sc_copy_masked_edges sc) (flag_sum (sc_noise_interp_flags sc))
    (flag_sum (sc_spline_interp_flags sc)) (flag_sum (sc_bad_image_flags sc))
    (sc_max_masked_fraction sc).

(** _pizza_cutter.py:313-332. *)
Definition star_mask (sc : se_config) (ti : tile_info) (o : @object F) : result (option (img bool)) :=
  match ti_gaia_stars ti, sc_gaia_star_masks sc with
  | Some catalogue, Some gc =>
      stars <- read_gaia_stars (x_sky2image ext) (ti_position_offset ti) catalogue ;;
      m <- build_gaia_star_mask (x_pow10 ext) (x_to_f4 ext) (x_make_foreground_bmask ext) stars
             (gc_max_g_mag gc) (gc_poly_coeffs gc) (ob_orig_start_col o) (ob_orig_start_row o)
             (ob_box_size o) (gc_symmetrize gc) ;;
      Ok (Some m)
  | _, _ => Ok None
  end.

(** The keys of [results] that are missing when there are no weights. *)
Definition nothing : img pixel := mkimg 0 0 (fun _ _ => PI 0).

(** _pizza_cutter.py:296-414. (The code calls [image2sky] before it checks that
    [psf_box_size] is odd; if both fail another exception is raised here.) *)
Definition coadd_single_slice (sc : se_config) (coadding_weight : string) (ti : tile_info)
  (object_data : list (@object F)) (n_extra_noise_images : Z) (seeds : list src_seeds)
  (item : Z * Z) : result (@results F pixel (list (@epoch_row F))) :=
  let '(i, slice_seed) := item in
  let rng := x_random_state ext slice_seed in
  o <- pynth object_data i ;;
  (* 305-311 *)
  ' (col, row) <- x_sky2image ext (ob_ra o) (ob_dec o) ;;
  ' ((kcol, krow), (psf_start_row, psf_start_col)) <-
    build_coadd_psf_layout col row (ob_psf_box_size o) (ti_position_offset ti) ;;
  ' (ra_psf, dec_psf) <- x_image2sky ext (fofZ kcol) (fofZ krow) ;;
  (* 313-332 *)
  gaia_star_mask <- star_mask sc ti o ;;
  (* 334-368 *)
  ' (inputs, _) <-
    build_slice_inputs (x_rotate ext) (x_normal ext) (x_normal2 ext) (x_interpolator ext)
      (x_median ext) (x_measure_fwhm ext) (x_outliers ext) (slice_config sc coadding_weight)
      (match gaia_star_mask with
       | Some m => Some (x_map_mask ext m (ob_orig_start_row o) (ob_orig_start_col o))
       | None => None
       end)
      (x_sources ext seeds (ob_ra o) (ob_dec o) ra_psf dec_psf (ob_box_size o)) rng ;;
  (* 370-381 *)
  let epochs_info := make_epochs_info (ob_id o) (si_weights inputs) (si_slices inputs)
                       (si_not_used inputs) (si_flags inputs) in
  match si_weights inputs with
  | [] =>
      Ok (mk_results pixel (list epoch_row) i epochs_info [] nothing nothing nothing [] nothing
            nothing nothing fzero)
  | _ :: _ =>
      (* 384-402 *)
      image_shape <- (match ti_image_shape ti with Some s => Ok s | None => Raise KeyError end) ;;
      ' (co, weight, _) <-
        coadd_slice_inputs
          (x_resample ext (ob_orig_start_row o) (ob_orig_start_col o) (ob_box_size o)
             psf_start_row psf_start_col (ob_psf_box_size o) image_shape)
          (ob_box_size o) (ob_psf_box_size o) (si_slices inputs) (si_weights inputs)
          (Z.to_nat n_extra_noise_images) ;;
      (* 404-412 *)
      Ok (mk_results pixel (list epoch_row) i epochs_info (si_weights inputs)
            (imap PF (co_image co)) (imap PI (co_bmask co)) (imap PI (co_ormask co))
            (map (imap PF) (co_noises co)) (imap PF weight) (imap PF (co_mfrac co))
            (imap PF (co_psf co)) (x_measure_fwhm ext (co_psf co)))
  end.

End SingleSlice.
