(** Model of the work on one slice of a tile with the image objects themselves:
    Model/SingleSlice.v with the answers of Model/Epoch.v, the lookup tables of
    Model/WcsGrid.v and the resampling of Model/Resample.v. *)
From Coq Require Import ZArith List Bool String.
From Coq Require Import List.
From Verif Require Import Lib.Base Lib.Floats Model.Jobs Model.WcsGrid Model.SeImage Model.SeWcs
  Model.PsfImage Model.Resample Model.SliceInputs Model.Coadd Model.SingleSlice Model.Epoch.
Import ListNotations.
Open Scope list_scope.
Open Scope Z_scope.

Section Whole.
Context {F : Type} {FO : FloatOps F} {P RNG : Type}.

(** The coadd WCS (esutil's or an AffineWCS) by what its methods return for one
    position; [cw_celestial] is the condition of _se_image.py:177. *)
Record coadd_wcs := mkcw {
  cw_sky2image : F -> F -> result (F * F);
  cw_image2sky : F -> F -> result (F * F);
  cw_celestial : bool
}.

(** What the lookup tables use of scipy and numpy, see Model/WcsGrid.v. *)
Record table_libs := mktl {
  tl_ct : list (F * F) -> list F -> F * F -> F;
  tl_spline : list Z -> list Z -> img F -> F -> F -> F;
  tl_cos : F -> F;
  tl_d2r : F;
  tl_fuel : nat
}.

(** A tile: its images and configuration. *)
Record tile := mktile {
  t_world : world F P;
  t_options : options F P;
  t_entries : list (entry F P);
  t_coadd : coadd_wcs;
  t_offset : Z;                  (* position_offset *)
  t_libs : table_libs;
  t_se_delta : Z;                (* se_wcs_interp_delta *)
  t_coadd_delta : Z              (* coadd_wcs_interp_delta *)
}.
Variable t : tile.

(** The first exception of calls for a list of positions, if any. *)
Fixpoint each {A B} (f : A -> result B) (l : list A) : result (list B) :=
  match l with
  | [] => Ok []
  | a :: l => b <- f a ;; bs <- each f l ;; Ok (b :: bs)
  end.

(** The answer of a call that is known not to raise. *)
Definition known (f : F -> F -> result (F * F)) (x y : F) : F * F :=
  match f x y with Ok p => p | Raise _ => (fzero, fzero) end.

(** _se_image.py:133-167 for an image and the coadd, with the exceptions of the two
    WCSs (159). *)
Definition wcs_tables (o : se_object (F := F) (P := P)) : result (inversion F * inversion F) :=
  pos <- se_positions (fst (so_shape o)) (snd (so_shape o)) (t_se_delta t) ;;
  sky <- each (fun p => image2sky1 (so_wcs o) (snd p) (fst p)) pos ;;
  _ <- each (fun s => cw_sky2image (t_coadd t) (fst s) (snd s)) sky ;;
  get_wcs_inverse (known (cw_sky2image (t_coadd t))) (known (image2sky1 (so_wcs o)))
    (fofZ (t_offset t)) (so_shape o) (t_se_delta t).

(** _se_image.py:170-190, the calls of [image2sky] and the area. *)
Definition pixel_area (image2sky : F -> F -> result (F * F)) (celestial : bool) (x y : F)
  : result (option F) :=
  _ <- image2sky x y ;;
  _ <- image2sky (fadd x fone) y ;;
  _ <- image2sky (fsub x fone) y ;;
  _ <- image2sky x (fadd y fone) ;;
  _ <- image2sky x (fsub y fone) ;;
  Ok (compute_wcs_area (known image2sky) celestial (tl_cos (t_libs t)) (tl_d2r (t_libs t))
        (tl_fuel (t_libs t)) x y fone).

(** _se_image.py:193-227. A call that is still running after [tl_fuel] steps is taken
    as an exception. *)
Definition area_table (image2sky : F -> F -> result (F * F)) (celestial : bool) (shape : Z * Z)
  (delta : Z) (offset : F) : result (scalar_grid F) :=
  pos <- se_positions (fst shape) (snd shape) delta ;;
  _ <- each (fun p => pixel_area image2sky celestial (fadd (snd p) offset) (fadd (fst p) offset)) pos ;;
  match get_wcs_area_interp
          (fun x y => match pixel_area image2sky celestial x y with Ok a => a | Raise _ => None end)
          shape delta offset with
  | Some r => r
  | None => Raise OtherError
  end.

(** The object of the image with the given id. (In the code the object itself is
    handed on; it does not change in between.) *)
Definition find_object (id : Z) : result (se_object (F := F) (P := P)) :=
  match find (fun e => e_image_id e =? id) (t_entries t) with
  | Some e => make_object (t_world t) (t_options t) e
  | None => Raise OtherError
  end.

(** The attributes of an object with a slice, and with interpolated images. *)
Definition state_of (s : SliceInputs.se_slice (F := F)) (it : option (interp_data (F := F)))
  : se_state (F := F) :=
  mkstate
    (Some (SeImage.mkslice (SliceInputs.sl_x_start s) (SliceInputs.sl_y_start s)
             (SliceInputs.sl_box_size s) (SliceInputs.sl_image s) (SliceInputs.sl_weight s)
             (SliceInputs.sl_bmask s) (SliceInputs.sl_noises s)))
    (Some (mkpsf (SliceInputs.sl_psf s) (SliceInputs.sl_psf_x_start s)
             (SliceInputs.sl_psf_y_start s) (SliceInputs.sl_psf_box_size s)))
    it.

Definition used_state (u : used_slice (F := F)) : se_state (F := F) :=
  state_of (u_slice u)
    (Some (mkinterp (u_pmask u) (u_interp_frac u) (u_orig_image u) (u_interp_only_image u))).

(** The start positions are floats without fractional part (C68), which the
    resampling takes as integers. *)
Definition start (v : F) : result Z :=
  match ffloor v with Some z => Ok z | None => Raise OtherError end.

(** map_image_by_nearest_pixel of the star mask, _coadd_slices.py:305-315: the arguments
    are the mask, start_row and start_col. *)
Definition map_mask (m : img bool) (row col : F) (s : SliceInputs.se_slice (F := F)) : result (img bool) :=
  o <- find_object (SliceInputs.sl_image_id s) ;;
  ' (_, fwd) <- wcs_tables o ;;
  x0 <- start col ;;
  y0 <- start row ;;
  map_image_by_nearest_pixel false
    (fun x y => inversion_call (tl_ct (t_libs t)) fwd (fofZ x) (fofZ y)) m x0 y0 (state_of s None).

(** SEImageSlice.resample, _coadd_slices.py:658-670, with the tables of
    _se_image.py:1453-1490. *)
Definition resample_used (row col : F) (box : Z) (prow pcol : F) (pbox : Z) (shape : Z * Z)
  (u : used_slice (F := F)) : result (resampled (F := F)) :=
  o <- find_object (SliceInputs.sl_image_id (u_slice u)) ;;
  ' (inv, _) <- wcs_tables o ;;
  ga <- area_table (image2sky1 (so_wcs o)) (is_celestial (sw_wcs (so_wcs o))) (so_shape o)
          (t_se_delta t) fzero ;;
  gc <- area_table (cw_image2sky (t_coadd t)) (cw_celestial (t_coadd t)) shape
          (t_coadd_delta t) (fofZ (t_offset t)) ;;
  x0 <- start col ;;
  y0 <- start row ;;
  px0 <- start pcol ;;
  py0 <- start prow ;;
  r <- resample
         (fun x y => inversion_call (tl_ct (t_libs t)) inv (fofZ x) (fofZ y))
         (fun x y => scalar_call (tl_spline (t_libs t)) ga (fofZ x) (fofZ y))
         (fun x y => scalar_call (tl_spline (t_libs t)) gc (fofZ x) (fofZ y))
         (used_state u) x0 y0 box px0 py0 pbox ;;
  Ok (mkres (ro_image r) (ro_noises r) (ro_interp_frac r) (ro_psf r) (ro_bmask r) (ro_pmask r)).

(** _pizza_cutter.py:554-557: the seeds are put in the entries. *)
Fixpoint seeded (l : list (entry F P)) (seeds : list src_seeds) : list (entry F P) :=
  match l, seeds with
  | e :: l, (ns, ms) :: seeds =>
      mkentry (e_image_id e) (e_image_flags e) (e_offset e) (e_info e) (e_pixels e) (e_bmask e) ns ms
        :: seeded l seeds
  | _, _ => []
  end.

(** The parts that Model/SingleSlice.v takes as given: those of [libs], apart from the
    WCS, the images, the mapping of the mask and the resampling. *)
Definition tile_externals (libs : externals (F := F) (RNG := RNG)) : externals (F := F) (RNG := RNG) :=
  mkext (cw_sky2image (t_coadd t)) (cw_image2sky (t_coadd t)) (x_random_state libs)
    (fun seeds ra dec ra_psf dec_psf box =>
       map (answers (t_world t) (t_options t) ra dec ra_psf dec_psf box) (seeded (t_entries t) seeds))
    map_mask resample_used
    (x_rotate libs) (x_normal libs) (x_normal2 libs) (x_interpolator libs) (x_median libs)
    (x_measure_fwhm libs) (x_outliers libs) (x_pow10 libs) (x_to_f4 libs) (x_make_foreground_bmask libs).

End Whole.
Arguments tile : clear implicits.
Arguments coadd_wcs : clear implicits.
Arguments table_libs : clear implicits.
