(** Vocabulary for the file as a whole: what is done for one slice and where
    it is found in the file. *)
From Coq Require Import ZArith List Bool String Reals.
From Coq Require Import List.
From Verif Require Import Lib.Base Lib.PyStr Lib.Floats Model.Jobs Model.Gaia Model.ObjectData
  Model.SliceInputs Model.Coadd Model.Writer Model.SingleSlice Spec.FloatSpec Spec.CoaddSpec Spec.SliceInputsSpec.
Import ListNotations.
Open Scope list_scope.
Open Scope Z_scope.

Section S.
Context {F : Type} {FO : FloatOps F} {RNG : Type}.
Variable ext : @externals F RNG.

(** The PSF of the stamp is centred at the pixel in column [kcol] and row
    [krow], in the convention of the WCS: the one nearest to the centre of the
    stamp. *)
Definition psf_pixel (ob : @object F) (kcol krow : Z) : Prop :=
  exists col row, x_sky2image ext (ob_ra ob) (ob_dec ob) = Ok (col, row) /\
    ffloor (fadd col fhalf) = Some kcol /\ ffloor (fadd row fhalf) = Some krow.

(** The single-epoch images of the stamp are sorted into used and not used ones
    as described by C36-C38 and C40, with the configured options and the random
    stream of the slice. The star mask is placed where the stamp starts. *)
Definition selected (sc : @se_config F) (coadding_weight : string) (mask : option (img bool))
  (seeds : list src_seeds) (slice_seed : Z) (ob : @object F) (ra_psf dec_psf : F)
  (inputs : @slice_inputs F) : Prop :=
  exists rng',
  build_slice_inputs (x_rotate ext) (x_normal ext) (x_normal2 ext) (x_interpolator ext)
    (x_median ext) (x_measure_fwhm ext) (x_outliers ext)
    (mkconfig (sc_reject_outliers sc) (sc_symmetrize_masking sc) coadding_weight
       (sc_copy_masked_edges sc) (flag_sum (sc_noise_interp_flags sc))
       (flag_sum (sc_spline_interp_flags sc)) (flag_sum (sc_bad_image_flags sc))
       (sc_max_masked_fraction sc))
    (option_map (fun m => x_map_mask ext m (ob_orig_start_row ob) (ob_orig_start_col ob)) mask)
    (x_sources ext seeds (ob_ra ob) (ob_dec ob) ra_psf dec_psf (ob_box_size ob))
    (x_random_state ext slice_seed) = Ok (inputs, rng').

(** [u] resampled to the stamp; the PSF image is centred at [kcol], [krow]. *)
Definition resampled_to (ti : @tile_info F) (shape : Z * Z) (ob : @object F) (kcol krow : Z)
  (u : @used_slice F) (d : @resampled F) : Prop :=
  let half := fdiv (fofZ (ob_psf_box_size ob - 1)) (fofZ 2) in
  x_resample ext (ob_orig_start_row ob) (ob_orig_start_col ob) (ob_box_size ob)
    (fsub (fofZ (krow - ti_position_offset ti)) half)
    (fsub (fofZ (kcol - ti_position_offset ti)) half)
    (ob_psf_box_size ob) shape u = Ok d.

(** Running sum of a quantity over the images, with normalised weights. *)
Definition sum_over (datas : list (@resampled F)) (weights : list F) (f : @resampled F -> F) : F :=
  running_sum (combine (map f datas) (map (fun w => fdiv w (fsum weights)) weights)).

Definition union_over (datas : list (@resampled F)) (f : @resampled F -> Z) : Z :=
  fold_right Z.lor 0 (map f datas).

(** The [k]-th noise image at a pixel. *)
Definition noise_at (k : nat) (y x : Z) (d : @resampled F) : F :=
  px (nth k (rs_noises d) (rs_image d)) y x.

(** Extension [e] holds the pixels [value] at the place of slice [i], in images
    of [size] x [size] pixels. *)
Definition holds {V E : Type} (o : @out F V E) (e : string) (i size : Z) (value : Z -> Z -> V) : Prop :=
  exists h, o_fits V E o e = Some h /\
    forall y x, 0 <= y < size -> 0 <= x < size ->
      dat V h (i * size ^ 2 + y * size + x) = value y x.

(** Name of the extension of the [k]-th noise image. *)
Definition noise_name (k : nat) : string :=
  match k with
  | O => "noise_cutouts"
  | _ => "noise" ++ dec (Z.of_nat k) ++ "_cutouts"
  end%string.

End S.

(** A slice cut out of one of the images for a slice of the coadd of size [box],
    before and after its bad pixels are interpolated. *)
Definition possible_slice {F : Type} {FO : FloatOps F} {RNG : Type} (ext : @externals F RNG)
  (seeds : list src_seeds) (box : Z) (s : @se_slice F) : Prop :=
  exists ra dec ra_psf dec_psf, cut_out_of (x_sources ext seeds ra dec ra_psf dec_psf box) s.

Definition possible_used {RNG : Type} (ext : @externals R RNG) (seeds : list src_seeds) (box : Z)
  (u : @used_slice R) : Prop :=
  exists ra dec ra_psf dec_psf src s, In src (x_sources ext seeds ra dec ra_psf dec_psf box) /\
    candidate src = true /\ src_slice src = Ok s /\ made_from s u.

(** What C38 asks of the parts that are not modelled, for a tile with the seeds
    [seeds] and slices of size [box]: the random generator returns as many numbers
    as asked for, the arrays of a slice have one shape, also that of the star mask,
    and no PSF image has width zero (if widths are used). *)
Record well_behaved {RNG : Type} (ext : @externals R RNG) (coadding_weight : string)
  (seeds : list src_seeds) (box : Z) : Prop :=
mkwell {
  wb_normal : forall r n x, length (fst (x_normal ext r n x)) = n;
  wb_shapes : forall ra dec ra_psf dec_psf src s,
    In src (x_sources ext seeds ra dec ra_psf dec_psf box) -> src_slice src = Ok s ->
    exists nr nc, shaped nr nc s;
  wb_mask : forall m row col s g nr nc, shaped nr nc s ->
    possible_slice ext seeds box s -> x_map_mask ext m row col s = Ok g -> shape_is nr nc g;
  wb_fwhm : coadding_weight = "noise-fwhm"%string -> forall psf, x_measure_fwhm ext psf <> 0%R
}.

(** The part of this that does not depend on the arithmetic: the random generator
    returns as many numbers as asked for, and the arrays of a slice have one shape,
    also that of the star mask. *)
Record right_shapes {F : Type} {FO : FloatOps F} {RNG : Type} (ext : @externals F RNG)
  (seeds : list src_seeds) (box : Z) : Prop :=
mkshapes {
  rs_normal : forall r n x, length (fst (x_normal ext r n x)) = n;
  rs_slices : forall ra dec ra_psf dec_psf src s,
    In src (x_sources ext seeds ra dec ra_psf dec_psf box) -> src_slice src = Ok s ->
    exists nr nc, shaped nr nc s;
  rs_mask : forall m row col s g nr nc, shaped nr nc s ->
    possible_slice ext seeds box s -> x_map_mask ext m row col s = Ok g -> shape_is nr nc g
}.

(** Doubles: extension [e] holds, at the place of slice [i] and stored with [cast], the
    mean of the images with the pixels [values], with weights of values [ws]. *)
Definition holds_mean {E : Type} (o : @out f64 (@pixel f64) E) (e : string) (i size : Z)
  (cast : @pixel f64 -> @pixel f64) (ws : list R) (values : Z -> Z -> list f64) : Prop :=
  exists mean, holds o e i size (fun y x => cast (PF (mean y x))) /\
    forall y x, averages ws (values y x) (mean y x).

(** A single-epoch image that contributes to a slice, its weight and what it
    looks like on the stamp. *)
Record contribution := mkcontr {
  ct_slice : @used_slice R;
  ct_weight : R;
  ct_data : @resampled R
}.

Definition mean_over (cs : list contribution) (f : @resampled R -> R) : R :=
  fold_right (fun c acc => ct_weight c * f (ct_data c) + acc)%R 0%R cs.

(** The image comes from one of the sources, and from one that can contribute:
    no flags, it covers the stamp, and its PSF model is good. If outliers are not
    rejected, unmarked pixels are as in the source. *)
Definition comes_from (sc : @se_config R) (srcs : list (@se_source R)) (u : @used_slice R) : Prop :=
  exists src s, In src srcs /\ src_image_flags src = 0 /\ src_contains_radec src = true /\
    src_contains_bounds src = true /\ src_psf_flag src = false /\
    src_slice src = Ok s /\ made_from s u /\
    (sc_reject_outliers sc = false -> unmarked_kept s u).

(** Nothing goes wrong for a stamp of size [box] on a coadd of shape [shape]: the WCS is defined everywhere, the
    interpolator works, the single-epoch images that can contribute can be cut
    out, have at least two rows and columns and, if masks are symmetrised, are
    square, and resampling gives all the noise images. *)
Record no_trouble {RNG : Type} (ext : @externals R RNG) (sc : @se_config R)
  (n_extra : Z) (seeds : list src_seeds) (box : Z) (shape : Z * Z) : Prop := mknotrouble {
  nt_sky2image : forall ra dec, exists p, x_sky2image ext ra dec = Ok p;
  nt_image2sky : forall x y, exists p, x_image2sky ext x y = Ok p;
  nt_interp : forall ps vs, exists f, x_interpolator ext ps vs = Ok f;
  nt_slices : forall ra dec ra_psf dec_psf src,
    In src (x_sources ext seeds ra dec ra_psf dec_psf box) -> candidate src = true ->
    exists s nr nc, src_slice src = Ok s /\ shaped nr nc s /\ 2 <= nr /\ 2 <= nc /\
      (sc_symmetrize_masking sc = SymOff \/ nr = nc);
  nt_map : forall m row col s nr nc, shaped nr nc s -> possible_slice ext seeds box s ->
    exists g, x_map_mask ext m row col s = Ok g /\ shape_is nr nc g;
  nt_resample : forall row col prow pcol pbox u, possible_used ext seeds box u ->
    exists d, x_resample ext row col box prow pcol pbox shape u = Ok d /\
      (S (Z.to_nat n_extra) <= length (rs_noises d))%nat
}.
