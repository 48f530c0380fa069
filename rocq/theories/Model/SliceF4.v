(** [_coadd_single_slice] (_pizza_cutter.py:296-414) once more, for images of any dtype: as
    Model/SingleSlice.v, with the coadd of Model/CoaddF4.v.

    Cutting out, masking and interpolating the single-epoch images
    (_build_slice_inputs, _pizza_cutter.py:334-368) also stores numbers with the dtype of the
    images. This stage is a function [select] here, any function: Model/SliceInputs.v models
    it for images of doubles, and with that function and images of doubles this is
    Model/SingleSlice.v (C92_double_slices). *)
From Coq Require Import ZArith List Bool String.
From Coq Require Import List.
From Verif Require Import Lib.Base Lib.Floats Lib.Float32 Model.Jobs Model.Gaia Model.ObjectData Model.PsfImage
  Model.SliceInputs Model.Coadd Model.Writer Model.SingleSlice Model.CoaddF4.
Import ListNotations.
Open Scope list_scope.
Open Scope Z_scope.

Section SliceAs.
Context {F : Type} {FO : FloatOps F} {RNG : Type}.
Variable store : F -> F.                    (* conversion to the dtype of the images *)
Variable inverse_variance : list F -> F.    (* [1.0 / np.var(a)] for an array of that dtype *)
Variable ext : @externals F RNG.
(* _pizza_cutter.py:334-368: star mask, seeds of the images, seed of the slice, object, ra_psf,
   dec_psf *)
Variable select : option (img bool) -> list src_seeds -> Z -> @object F -> F -> F -> result (@slice_inputs F).

(** _pizza_cutter.py:296-414. *)
Definition coadd_single_slice_as (sc : @se_config F) (ti : @tile_info F)
  (object_data : list (@object F)) (n_extra_noise_images : Z) (seeds : list src_seeds)
  (item : Z * Z) : result (@results F (@pixel F) (list (@epoch_row F))) :=
  let '(i, slice_seed) := item in
  o <- pynth object_data i ;;
  (* 305-311 *)
  ' (col, row) <- x_sky2image ext (ob_ra o) (ob_dec o) ;;
  ' ((kcol, krow), (psf_start_row, psf_start_col)) <-
    build_coadd_psf_layout col row (ob_psf_box_size o) (ti_position_offset ti) ;;
  ' (ra_psf, dec_psf) <- x_image2sky ext (fofZ kcol) (fofZ krow) ;;
  (* 313-332 *)
  gaia_star_mask <- star_mask ext sc ti o ;;
  (* 334-368 *)
  inputs <- select gaia_star_mask seeds slice_seed o ra_psf dec_psf ;;
  (* 370-381 *)
  let epochs_info := make_epochs_info (ob_id o) (si_weights inputs) (si_slices inputs)
                       (si_not_used inputs) (si_flags inputs) in
  match si_weights inputs with
  | [] =>
      Ok (mk_results pixel (list epoch_row) i epochs_info [] nothing nothing nothing [] nothing
            nothing nothing fzero)
  | _ :: _ =>
      (* 384-402 *)
      image_shape <- (match ti_image_shape ti with Some s => Ok s | None => Raise KeyError end) ;;
      ' (co, weight, _) <-
        coadd_slice_inputs_as store inverse_variance
          (x_resample ext (ob_orig_start_row o) (ob_orig_start_col o) (ob_box_size o)
             psf_start_row psf_start_col (ob_psf_box_size o) image_shape)
          (ob_box_size o) (ob_psf_box_size o) (si_slices inputs) (si_weights inputs)
          (Z.to_nat n_extra_noise_images) ;;
      (* 404-412 *)
      Ok (mk_results pixel (list epoch_row) i epochs_info (si_weights inputs)
            (imap PF (co_image co)) (imap PI (co_bmask co)) (imap PI (co_ormask co))
            (map (imap PF) (co_noises co)) (imap PF weight) (imap PF (co_mfrac co))
            (imap PF (co_psf co)) (x_measure_fwhm ext (co_psf co)))
  end.

End SliceAs.

(** The selection of images of doubles, _pizza_cutter.py:334-368, as in
    Model/SingleSlice.v. *)
Definition select_double {F : Type} {FO : FloatOps F} {RNG : Type} (ext : @externals F RNG)
  (sc : @se_config F) (coadding_weight : string) (gaia_star_mask : option (img bool))
  (seeds : list src_seeds) (slice_seed : Z) (o : @object F) (ra_psf dec_psf : F)
  : result (@slice_inputs F) :=
  ' (inputs, _) <-
    build_slice_inputs (x_rotate ext) (x_normal ext) (x_normal2 ext) (x_interpolator ext)
      (x_median ext) (x_measure_fwhm ext) (x_outliers ext) (slice_config sc coadding_weight)
      (match gaia_star_mask with
       | Some m => Some (x_map_mask ext m (ob_orig_start_row o) (ob_orig_start_col o))
       | None => None
       end)
      (x_sources ext seeds (ob_ra o) (ob_dec o) ra_psf dec_psf (ob_box_size o))
      (x_random_state ext slice_seed) ;;
  Ok inputs.

(** Images of dtype 'f4'. *)
Definition coadd_single_slice_f4 {RNG : Type} (ext : @externals f64 RNG) select sc ti objs n_extra :=
  coadd_single_slice_as to_single inverse_variance_single ext select sc ti objs n_extra.
