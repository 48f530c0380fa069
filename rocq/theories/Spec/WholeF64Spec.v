(** Vocabulary for a slice as a whole, in double arithmetic: the definitions of
    Spec/WholeSpec.v up to rounding. *)
From Coq Require Import ZArith List Bool String Reals.
From Coq Require Import List.
From Flocq Require Import Core.Zaux Core.Raux.
From Verif Require Import Lib.Base Lib.Floats Model.Jobs Model.WcsGrid Model.SeImage Model.SeWcs Model.PsfImage
  Model.Resample Model.SliceInputs Model.Coadd Model.SingleSlice Model.Epoch Model.Whole
  Spec.FloatSpec Spec.LanczosSpec Spec.WrapSpec Spec.WcsGridSpec Spec.SeWcsSpec Spec.PsfSpec
  Spec.ResampleSpec Spec.ResampleF64Spec Spec.SliceInputsSpec Spec.EpochSpec Spec.EpochF64Spec Spec.WholeSpec.
Import ListNotations.
Open Scope list_scope.
Open Scope Z_scope.

(** ** One image resampled *)
Section Resampling.
Variables (to_se : Z -> Z -> f64 * f64) (area_se area_coadd : Z -> Z -> f64) (sinc : R -> R).

(** The masks are those of a slice pixel whose centre is at most half a pixel away from the mapped
    position, up to rounding, or the edge bit outside of the slice; the pixel mask has
    the resampling bit exactly where no pixel is in the window of the kernel. *)
Definition masks_double (y0 x0 n sy sx m : Z) (bmask pmask obmask opmask : img Z) : Prop :=
  nrows obmask = n /\ ncols obmask = n /\ nrows opmask = n /\ ncols opmask = n /\
  forall r c y x, 0 <= r < n -> 0 <= c < n ->
  f64_is (snd (to_se (c + x0) (r + y0))) y -> f64_is (fst (to_se (c + x0) (r + y0))) x ->
  (Rabs y <= bpow radix2 30)%R -> (Rabs x <= bpow radix2 30)%R ->
  Z.abs sy <= 2 ^ 30 -> Z.abs sx <= 2 ^ 30 ->
  (- / 2 <= y - IZR sy)%R -> (- / 2 <= x - IZR sx)%R ->
  let seen := exists k l, 0 <= k < m /\ 0 <= l < m /\
    in_window 3 (rnd64 (y - IZR sy)) k /\ in_window 3 (rnd64 (x - IZR sx)) l in
  exists i j,
    (Rabs (y - IZR sy - IZR i) <= / 2 + bpow radix2 (-20))%R /\
    (Rabs (x - IZR sx - IZR j) <= / 2 + bpow radix2 (-20))%R /\
    mask_value bmask m m i j (px obmask r c) /\
    exists v, mask_value pmask m m i j v /\
      (seen -> px opmask r c = v) /\ (~ seen -> px opmask r c = Z.lor v (2 ^ 26)).

(** All the data of a slice, resampled to the stamp that starts at [(y0, x0)] and, for
    the PSF, to the one that starts at [(py0, px0)]. *)
Record resampled_from_double (y0 x0 n py0 px0 pn : Z) (u : used_slice (F := f64)) (d : resampled (F := f64)) : Prop :=
mkrfd {
  rfd_image : resampled_double to_se area_se area_coadd sinc (SliceInputs.sl_image (u_slice u)) (rs_image d)
    y0 x0 (SliceInputs.sl_y_start (u_slice u)) (SliceInputs.sl_x_start (u_slice u)) n
    (SliceInputs.sl_box_size (u_slice u));
  rfd_noises : Forall2 (fun a b => resampled_double to_se area_se area_coadd sinc a b
    y0 x0 (SliceInputs.sl_y_start (u_slice u)) (SliceInputs.sl_x_start (u_slice u)) n
    (SliceInputs.sl_box_size (u_slice u))) (SliceInputs.sl_noises (u_slice u)) (rs_noises d);
  rfd_frac : resampled_double to_se area_se area_coadd sinc (u_interp_frac u) (rs_interp_frac d)
    y0 x0 (SliceInputs.sl_y_start (u_slice u)) (SliceInputs.sl_x_start (u_slice u)) n
    (SliceInputs.sl_box_size (u_slice u));
  rfd_psf : exists raw, resampled_double to_se area_se area_coadd sinc (SliceInputs.sl_psf (u_slice u)) raw
      py0 px0 (SliceInputs.sl_psf_y_start (u_slice u)) (SliceInputs.sl_psf_x_start (u_slice u)) pn
      (SliceInputs.sl_psf_box_size (u_slice u)) /\ divided_by_sum raw (rs_psf d);
  rfd_masks : masks_double y0 x0 n (SliceInputs.sl_y_start (u_slice u)) (SliceInputs.sl_x_start (u_slice u))
    (SliceInputs.sl_box_size (u_slice u)) (SliceInputs.sl_bmask (u_slice u)) (u_pmask u)
    (rs_bmask d) (rs_pmask d)
}.
End Resampling.

(** ** The lookup tables *)
Section Tables.
Context {P : Type}.
Variable t : tile f64 P.

(** Half a pixel before row or column [k]. *)
Definition before (k : Z) : f64 := fsub (fofZ k) (fdiv (fofZ 1) (fofZ 2)).

(** The sky at a position of an image, counted from zero. *)
Definition sky_of_double (e : entry f64 P) (W : wcs f64) (x y : f64) : result (f64 * f64) :=
  own_sky W (op_color (t_options t)) (fadd x (fofZ (e_offset e))) (fadd y (fofZ (e_offset e))).

(** The table for positions. The nodes (x, y) are half a pixel before the grid lines; the
    points are the places of the nodes on the coadd (y, x), counted from
    zero; the values are the nodes. *)
Definition position_table_double (e : entry f64 P) (W : wcs f64) (shape : Z * Z) (inv : inversion f64) : Prop :=
  exists nodes : list (Z * Z),
    NoDup nodes /\
    (forall x y, In (x, y) nodes <->
       grid_line (snd shape) (t_se_delta t) x /\ grid_line (fst shape) (t_se_delta t) y) /\
    inv_x inv = map (fun node => before (fst node)) nodes /\
    inv_y inv = map (fun node => before (snd node)) nodes /\
    Forall2 (fun node p => exists ra dec xc yc,
        sky_of_double e W (before (fst node)) (before (snd node)) = Ok (ra, dec) /\
        cw_sky2image (t_coadd t) ra dec = Ok (xc, yc) /\
        p = (fsub yc (fofZ (t_offset t)), fsub xc (fofZ (t_offset t))))
      nodes (inv_pts inv).

(** The table for the other direction: the points are the nodes (y, x), the values
    their places on the coadd. *)
Definition coadd_table_double (e : entry f64 P) (W : wcs f64) (shape : Z * Z) (fwd : inversion f64) : Prop :=
  exists (nodes : list (Z * Z)) (places : list (f64 * f64)),
    NoDup nodes /\
    (forall x y, In (x, y) nodes <->
       grid_line (snd shape) (t_se_delta t) x /\ grid_line (fst shape) (t_se_delta t) y) /\
    inv_pts fwd = map (fun node => (before (snd node), before (fst node))) nodes /\
    inv_x fwd = map fst places /\ inv_y fwd = map snd places /\
    Forall2 (fun node p => exists ra dec xc yc,
        sky_of_double e W (before (fst node)) (before (snd node)) = Ok (ra, dec) /\
        cw_sky2image (t_coadd t) ra dec = Ok (xc, yc) /\
        p = (fsub xc (fofZ (t_offset t)), fsub yc (fofZ (t_offset t))))
      nodes places.

(** [g] is the mask [m], which starts at row [y0] and column [x0] of the coadd, seen in
    the [n x n] pixels of the image from row [sy] and column [sx] on: a pixel is masked
    if a mask pixel is whose centre is within half a pixel and 2^-20 of its place on the
    coadd. *)
Definition mask_on_image_double (e : entry f64 P) (W : wcs f64) (shape : Z * Z) (y0 x0 sy sx n : Z)
  (m g : img bool) : Prop :=
  nrows g = n /\ ncols g = n /\
  exists fwd, coadd_table_double e W shape fwd /\
  forall r c row col, 0 <= r < n -> 0 <= c < n ->
  let at_pixel values := tl_ct (t_libs t) (inv_pts fwd) values (fofZ (r + sy), fofZ (c + sx)) in
  f64_is (at_pixel (inv_y fwd)) row -> f64_is (at_pixel (inv_x fwd)) col ->
  (Rabs row <= bpow radix2 30)%R -> (Rabs col <= bpow radix2 30)%R ->
  exists i j,
    (Rabs (row - IZR y0 - IZR i) <= / 2 + bpow radix2 (-20))%R /\
    (Rabs (col - IZR x0 - IZR j) <= / 2 + bpow radix2 (-20))%R /\
    (px g r c = true <-> inb m i j /\ px m i j = true).

(** A difference of two right ascensions, wrapped: exactly, unless it is huge. *)
Definition wrapped_double (x y : f64) : Prop :=
  forall v, f64_is x v -> (Rabs v <= bpow radix2 56)%R -> exists w, f64_is y w /\ wrapped v w.

(** The area of a pixel from differences over two pixels, evaluated in doubles in the
    order in which it is written. *)
Definition area_at_double (image2sky : f64 -> f64 -> result (f64 * f64)) (celestial : bool) (x y a : f64) : Prop :=
  let one : f64 := fofZ 1 in
  let half : f64 := fdiv (fofZ 1) (fofZ 2) in
  let slope d : f64 := fdiv (fmul half d) one in
  let minus_slope d : f64 := fdiv (fmul (fdiv (fofZ (-1)) (fofZ 2)) d) one in
  exists r0 d0 r1 d1 r2 d2 r3 d3 r4 d4,
    image2sky x y = Ok (r0, d0) /\
    image2sky (fadd x one) y = Ok (r1, d1) /\ image2sky (fsub x one) y = Ok (r2, d2) /\
    image2sky x (fadd y one) = Ok (r3, d3) /\ image2sky x (fsub y one) = Ok (r4, d4) /\
    if celestial then
      exists dx dy, wrapped_double (fsub r1 r2) dx /\ wrapped_double (fsub r3 r4) dy /\
        let cosdec := tl_cos (t_libs t) (fmul d0 (tl_d2r (t_libs t))) in
        let arcsec v : f64 := fmul v (fofZ 3600) in
        a = fabs (fsub (fmul (arcsec (fmul (minus_slope dx) cosdec)) (arcsec (slope (fsub d3 d4))))
                       (fmul (arcsec (slope (fsub d1 d2))) (arcsec (fmul (minus_slope dy) cosdec))))
    else a = fabs (fsub (fmul (slope (fsub r1 r2)) (slope (fsub d3 d4)))
                        (fmul (slope (fsub d1 d2)) (slope (fsub r3 r4)))).

(** The table for areas: the value stored for node [(i, j)] is the area half a pixel
    before it in both directions. *)
Definition area_table_double (image2sky : f64 -> f64 -> result (f64 * f64)) (celestial : bool) (shape : Z * Z)
  (delta : Z) (offset : f64) (g : scalar_grid f64) : Prop :=
  NoDup (sg_x g) /\ NoDup (sg_y g) /\
  (forall a, In a (sg_x g) <-> grid_line (snd shape) delta a) /\
  (forall b, In b (sg_y g) <-> grid_line (fst shape) delta b) /\
  forall i j a b, nth_error (sg_x g) i = Some a -> nth_error (sg_y g) j = Some b ->
    area_at_double image2sky celestial (fadd (before a) offset) (fadd (before b) offset)
      (px (sg_values g) (Z.of_nat i) (Z.of_nat j)).

(** [d] is what the used slice [u], cut out of the image of [e], looks like on the stamp:
    the mapping and the areas are scipy's interpolations of the tables. *)
Definition seen_on_stamp_double (sinc : R -> R) (e : entry f64 P) (W : wcs f64) (shape : Z * Z) (coadd_shape : Z * Z)
  (y0 x0 n py0 px0 pn : Z) (u : used_slice (F := f64)) (d : resampled (F := f64)) : Prop :=
  exists inv ga gc,
    position_table_double e W shape inv /\
    area_table_double (sky_of_double e W) (is_celestial W) shape (t_se_delta t) (fofZ 0) ga /\
    area_table_double (cw_image2sky (t_coadd t)) (cw_celestial (t_coadd t)) coadd_shape (t_coadd_delta t)
      (fofZ (t_offset t)) gc /\
    resampled_from_double
      (fun x y => (tl_ct (t_libs t) (inv_pts inv) (inv_x inv) (fofZ y, fofZ x),
                   tl_ct (t_libs t) (inv_pts inv) (inv_y inv) (fofZ y, fofZ x)))
      (fun x y => tl_spline (t_libs t) (sg_x ga) (sg_y ga) (sg_values ga) (fofZ x) (fofZ y))
      (fun x y => tl_spline (t_libs t) (sg_x gc) (sg_y gc) (sg_values gc) (fofZ x) (fofZ y)) sinc
      y0 x0 n py0 px0 pn u d.

(** [contributes] of Spec/WholeSpec.v up to rounding: the image is one of the tile,
    without flags, [e] with its seeds; it is cut out around the position of the slice and
    looks as described on the stamp. If outliers are not rejected, its unmarked pixels are
    those of the files. [frac] is the value of the buffer fraction. *)
Definition contributes_double (sinc : R -> R) (frac : R) (reject : bool) (seeds : list src_seeds)
  (ra dec ra_psf dec_psf : f64) (coadd_shape : Z * Z)
  (y0 x0 n py0 px0 pn : Z) (u : used_slice (F := f64)) (d : resampled (F := f64)) : Prop :=
  exists e W m shape s, given_seeds t seeds e /\
    image_of (t_world t) (t_options t) e W m shape /\
    kept_from_double (t_world t) (t_options t) frac ra dec ra_psf dec_psf n e W m shape s false /\
    made_from s u /\ (reject = false -> unmarked_kept s u) /\
    seen_on_stamp_double sinc e W shape coadd_shape y0 x0 n py0 px0 pn u d.
End Tables.
