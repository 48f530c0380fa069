(** Vocabulary for a slice as a whole: from the pixels of the single-epoch images to
    the file. *)
From Coq Require Import ZArith List Bool String Reals.
From Coq Require Import List.
From Verif Require Import Lib.Base Lib.Floats Model.Jobs Model.Lanczos Model.WcsGrid Model.SeImage Model.SeWcs Model.PsfImage
  Model.Resample Model.SliceInputs Model.Coadd Model.SingleSlice Model.Epoch Model.Whole
  Spec.LanczosSpec Spec.WrapSpec Spec.CoaddSpec Spec.WcsGridSpec Spec.SeImageSpec Spec.SeWcsSpec Spec.PsfSpec
  Spec.ResampleSpec Spec.SliceInputsSpec Spec.SingleSliceSpec Spec.EpochSpec.
Import ListNotations.
Open Scope list_scope.
Open Scope Z_scope.

(** ** One image resampled *)
Section Resampling.
Variables (to_se : Z -> Z -> R * R) (area_se area_coadd : Z -> Z -> R).

(** [out], of [n x n] pixels from column [x0] and row [y0] of the coadd on, is [im],
    of [m x m] pixels from column [sx] and row [sy] of the image on, resampled: the
    Lanczos kernel summed over the surface brightness, times the pixel area. *)
Definition kernel_image (y0 x0 n sy sx m : Z) (im out : img R) : Prop :=
  nrows out = n /\ ncols out = n /\
  forall r c, 0 <= r < n -> 0 <= c < n ->
  let row := (snd (to_se (c + x0) (r + y0)) - IZR sy)%R in
  let col := (fst (to_se (c + x0) (r + y0)) - IZR sx)%R in
  exists v, px out r c = (v * area_coadd (c + x0)%Z (r + y0)%Z)%R /\
    window_sum m m 3 row col
      (fun i j => px im i j / area_se (j + sx)%Z (i + sy)%Z *
                  (lanczos_kernel 3 (col - IZR j) * lanczos_kernel 3 (row - IZR i)))%R v.

(** The masks are those of the slice pixel at the truncated position, or the edge bit
    outside of the slice; the pixel mask has the resampling bit where no pixel is
    in the window of the kernel. *)
Definition kernel_masks (y0 x0 n sy sx m : Z) (bmask pmask obmask opmask : img Z) : Prop :=
  nrows obmask = n /\ ncols obmask = n /\ nrows opmask = n /\ ncols opmask = n /\
  forall r c i j, 0 <= r < n -> 0 <= c < n ->
  let row := (snd (to_se (c + x0) (r + y0)) - IZR sy)%R in
  let col := (fst (to_se (c + x0) (r + y0)) - IZR sx)%R in
  int64_position row -> int64_position col -> truncated row i -> truncated col j ->
  mask_value bmask m m i j (px obmask r c) /\
  exists v, mask_value pmask m m i j v /\
    ((exists k l, 0 <= k < m /\ 0 <= l < m /\ in_window 3 row k /\ in_window 3 col l) -> px opmask r c = v) /\
    (~ (exists k l, 0 <= k < m /\ 0 <= l < m /\ in_window 3 row k /\ in_window 3 col l) ->
     px opmask r c = Z.lor v (2 ^ 26)).

(** All the data of a slice, resampled to the stamp that starts at [(y0, x0)] and, for
    the PSF, to the one that starts at [(py0, px0)]. *)
Record resampled_from (y0 x0 n py0 px0 pn : Z) (u : used_slice (F := R)) (d : resampled (F := R)) : Prop :=
mkrf {
  rf_image : kernel_image y0 x0 n (SliceInputs.sl_y_start (u_slice u)) (SliceInputs.sl_x_start (u_slice u))
    (SliceInputs.sl_box_size (u_slice u)) (SliceInputs.sl_image (u_slice u)) (rs_image d);
  rf_noises : Forall2 (kernel_image y0 x0 n (SliceInputs.sl_y_start (u_slice u))
    (SliceInputs.sl_x_start (u_slice u)) (SliceInputs.sl_box_size (u_slice u)))
    (SliceInputs.sl_noises (u_slice u)) (rs_noises d);
  rf_frac : kernel_image y0 x0 n (SliceInputs.sl_y_start (u_slice u)) (SliceInputs.sl_x_start (u_slice u))
    (SliceInputs.sl_box_size (u_slice u)) (u_interp_frac u) (rs_interp_frac d);
  rf_psf : exists raw, kernel_image py0 px0 pn (SliceInputs.sl_psf_y_start (u_slice u))
      (SliceInputs.sl_psf_x_start (u_slice u)) (SliceInputs.sl_psf_box_size (u_slice u))
      (SliceInputs.sl_psf (u_slice u)) raw /\ normalised_of raw (rs_psf d);
  rf_masks : kernel_masks y0 x0 n (SliceInputs.sl_y_start (u_slice u)) (SliceInputs.sl_x_start (u_slice u))
    (SliceInputs.sl_box_size (u_slice u)) (SliceInputs.sl_bmask (u_slice u)) (u_pmask u)
    (rs_bmask d) (rs_pmask d)
}.
End Resampling.

(** ** Images and seeds *)
(** An image of the tile with the seeds it is given: those at its place in the list. *)
Definition given_seeds {F P : Type} (t : tile F P) (seeds : list src_seeds) (e : entry F P) : Prop :=
  exists k e0 noise_seeds mask_seed,
    nth_error (t_entries t) k = Some e0 /\ nth_error seeds k = Some (noise_seeds, mask_seed) /\
    e = mkentry (e_image_id e0) (e_image_flags e0) (e_offset e0) (e_info e0) (e_pixels e0) (e_bmask e0)
          noise_seeds mask_seed.


(** ** The lookup tables *)
Section Tables.
Context {P : Type}.
Variable t : tile R P.

(** The sky at a position of an image, counted from zero. *)
Definition sky_of (e : entry R P) (W : wcs R) (x y : R) : result (R * R) :=
  own_sky W (op_color (t_options t)) (x + IZR (e_offset e))%R (y + IZR (e_offset e))%R.

(** The nodes of the lookup tables on an image: x, y. *)
Definition grid_node (shape : Z * Z) (delta : Z) (x y : R) : Prop :=
  exists a b, grid_line (snd shape) delta a /\ grid_line (fst shape) delta b /\
    x = (IZR a - 1 / 2)%R /\ y = (IZR b - 1 / 2)%R.

(** The table for positions: the points are the places of the nodes on the
    coadd (y, x), counted from zero; the values are the nodes. *)
Definition position_table (e : entry R P) (W : wcs R) (shape : Z * Z) (inv : inversion R) : Prop :=
  exists nodes : list (R * R),
    NoDup nodes /\ (forall x y, In (x, y) nodes <-> grid_node shape (t_se_delta t) x y) /\
    inv_x inv = map fst nodes /\ inv_y inv = map snd nodes /\
    Forall2 (fun node p => exists ra dec xc yc,
        sky_of e W (fst node) (snd node) = Ok (ra, dec) /\
        cw_sky2image (t_coadd t) ra dec = Ok (xc, yc) /\
        p = (yc - IZR (t_offset t), xc - IZR (t_offset t))%R)
      nodes (inv_pts inv).

(** The table for the other direction: the points are the nodes (y, x), the values
    their places on the coadd. *)
Definition coadd_table (e : entry R P) (W : wcs R) (shape : Z * Z) (fwd : inversion R) : Prop :=
  exists nodes places : list (R * R),
    NoDup nodes /\ (forall x y, In (x, y) nodes <-> grid_node shape (t_se_delta t) x y) /\
    inv_pts fwd = map (fun node => (snd node, fst node)) nodes /\
    inv_x fwd = map fst places /\ inv_y fwd = map snd places /\
    Forall2 (fun node p => exists ra dec xc yc,
        sky_of e W (fst node) (snd node) = Ok (ra, dec) /\
        cw_sky2image (t_coadd t) ra dec = Ok (xc, yc) /\
        p = (xc - IZR (t_offset t), yc - IZR (t_offset t))%R)
      nodes places.

(** [g] is the mask [m], which starts at row [y0] and column [x0] of the coadd, seen in
    the [n x n] pixels of the image from row [sy] and column [sx] on: a pixel is masked
    if the mask pixel nearest to its place on the coadd is. *)
Definition mask_on_image (e : entry R P) (W : wcs R) (shape : Z * Z) (y0 x0 sy sx n : Z)
  (m g : img bool) : Prop :=
  nrows g = n /\ ncols g = n /\
  exists fwd, coadd_table e W shape fwd /\
  forall r c i j, 0 <= r < n -> 0 <= c < n ->
  let at_pixel values := tl_ct (t_libs t) (inv_pts fwd) values (IZR (r + sy), IZR (c + sx)) in
  let row := (at_pixel (inv_y fwd) - IZR y0)%R in
  let col := (at_pixel (inv_x fwd) - IZR x0)%R in
  int64_position row -> int64_position col -> nearest row i -> nearest col j ->
  (px g r c = true <-> inb m i j /\ px m i j = true).

(** The area of a pixel from differences over two pixels; in square arc seconds on
    the sky. *)
Definition area_at (image2sky : R -> R -> result (R * R)) (celestial : bool) (x y a : R) : Prop :=
  exists r0 d0 r1 d1 r2 d2 r3 d3 r4 d4,
    image2sky x y = Ok (r0, d0) /\
    image2sky (x + 1)%R y = Ok (r1, d1) /\ image2sky (x - 1)%R y = Ok (r2, d2) /\
    image2sky x (y + 1)%R = Ok (r3, d3) /\ image2sky x (y - 1)%R = Ok (r4, d4) /\
    if celestial then
      exists dx dy, wrapped (r1 - r2) dx /\ wrapped (r3 - r4) dy /\
        a = Rabs (3600 * 3600 * tl_cos (t_libs t) (d0 * tl_d2r (t_libs t)) *
                  (dx / 2 * ((d3 - d4) / 2) - (d1 - d2) / 2 * (dy / 2)))%R
    else a = Rabs ((r1 - r2) / 2 * ((d3 - d4) / 2) - (d1 - d2) / 2 * ((r3 - r4) / 2))%R.

(** The table for areas: the value stored for node [(i, j)] is the area half a pixel
    before it in both directions. *)
Definition area_table_of (image2sky : R -> R -> result (R * R)) (celestial : bool) (shape : Z * Z)
  (delta : Z) (offset : R) (g : scalar_grid R) : Prop :=
  NoDup (sg_x g) /\ NoDup (sg_y g) /\
  (forall a, In a (sg_x g) <-> grid_line (snd shape) delta a) /\
  (forall b, In b (sg_y g) <-> grid_line (fst shape) delta b) /\
  forall i j a b, nth_error (sg_x g) i = Some a -> nth_error (sg_y g) j = Some b ->
    area_at image2sky celestial (IZR a - 1 / 2 + offset)%R (IZR b - 1 / 2 + offset)%R
      (px (sg_values g) (Z.of_nat i) (Z.of_nat j)).

(** [d] is what the used slice [u], cut out of the image of [e], looks like on the stamp:
    the mapping and the areas are scipy's interpolations of the tables. *)
Definition seen_on_stamp (e : entry R P) (W : wcs R) (shape : Z * Z) (coadd_shape : Z * Z)
  (y0 x0 n py0 px0 pn : Z) (u : used_slice (F := R)) (d : resampled (F := R)) : Prop :=
  exists inv ga gc,
    position_table e W shape inv /\
    area_table_of (sky_of e W) (is_celestial W) shape (t_se_delta t) 0%R ga /\
    area_table_of (cw_image2sky (t_coadd t)) (cw_celestial (t_coadd t)) coadd_shape (t_coadd_delta t)
      (IZR (t_offset t)) gc /\
    resampled_from
      (fun x y => (tl_ct (t_libs t) (inv_pts inv) (inv_x inv) (IZR y, IZR x),
                   tl_ct (t_libs t) (inv_pts inv) (inv_y inv) (IZR y, IZR x)))
      (fun x y => tl_spline (t_libs t) (sg_x ga) (sg_y ga) (sg_values ga) (IZR x) (IZR y))
      (fun x y => tl_spline (t_libs t) (sg_x gc) (sg_y gc) (sg_values gc) (IZR x) (IZR y))
      y0 x0 n py0 px0 pn u d.

(** ** A tile for which nothing goes wrong *)
(** Right ascensions are given in a range of 360 degrees, and wrapping takes one
    step then. *)
Definition in_one_turn (image2sky : R -> R -> result (R * R)) (celestial : bool) : Prop :=
  celestial = true -> (1 <= tl_fuel (t_libs t))%nat /\
  forall x y x' y' ra dec ra' dec', image2sky x y = Ok (ra, dec) -> image2sky x' y' = Ok (ra', dec') ->
    (Rabs (ra - ra') <= 360)%R.

(** The images can be used, for the given seeds; they have different ids, are larger
    than two steps of the tables, and as many noise images as wanted are made. The WCS
    of the coadd is defined everywhere and the coadd is large enough, too. *)
Record ready (n_extra : Z) (seeds : list src_seeds) (box : Z) (coadd_shape : Z * Z) : Prop := mkready {
  rd_box : (2 <= op_frac_buffer (t_options t) * IZR box)%R;
  rd_ids : NoDup (map e_image_id (t_entries t));
  rd_images : forall e, given_seeds t seeds e -> e_image_flags e = 0 ->
    (S (Z.to_nat n_extra) <= length (e_noise_seeds e))%nat /\
    exists W m shape, usable (t_world t) (t_options t) e W m shape /\
      2 * t_se_delta t < fst shape /\ 2 * t_se_delta t < snd shape /\
      in_one_turn (sky_of e W) (is_celestial W);
  rd_se_delta : 0 < t_se_delta t;
  rd_coadd_delta : 0 < t_coadd_delta t;
  rd_coadd_rows : 2 * t_coadd_delta t < fst coadd_shape;
  rd_coadd_cols : 2 * t_coadd_delta t < snd coadd_shape;
  rd_sky2image : forall ra dec, exists p, cw_sky2image (t_coadd t) ra dec = Ok p;
  rd_image2sky : forall x y, exists p, cw_image2sky (t_coadd t) x y = Ok p;
  rd_one_turn : in_one_turn (cw_image2sky (t_coadd t)) (cw_celestial (t_coadd t))
}.

(** The image that contributes is one of the tile, without flags, [e] with its seeds; it is
    cut out around the position of the slice and looks as described on the stamp. If
    outliers are not rejected, its unmarked pixels are those of the files. *)
Definition contributes (reject : bool) (seeds : list src_seeds) (ra dec ra_psf dec_psf : R) (coadd_shape : Z * Z)
  (y0 x0 n py0 px0 pn : Z) (c : contribution) : Prop :=
  exists e W m shape s, given_seeds t seeds e /\
    image_of (t_world t) (t_options t) e W m shape /\
    kept_from (t_world t) (t_options t) ra dec ra_psf dec_psf n e W m shape s false /\
    made_from s (ct_slice c) /\ (reject = false -> unmarked_kept s (ct_slice c)) /\
    seen_on_stamp e W shape coadd_shape y0 x0 n py0 px0 pn (ct_slice c) (ct_data c).
End Tables.
