(** Vocabulary for the images that contribute to a slice. *)
From Coq Require Import ZArith List Bool String Reals.
From Coq Require Import List.
From Flocq Require Import Raux.
From Verif Require Import Lib.Base Lib.Floats Model.Noise Model.SeWcs Model.TapeBumps Model.SeImage Model.PsfImage Model.Piff
  Model.SliceInputs Model.Epoch
  Spec.SeImageSpec Spec.SeWcsSpec Spec.PsfSpec.
Import ListNotations.
Open Scope list_scope.
Open Scope Z_scope.

Section G.
Context {F : Type} {FO : FloatOps F} {P : Type}.
Variable w : world F P.
Variable op : options F P.

(** The WCS, the PSF model and the shape (rows, columns) of an image, found as
    configured. *)
Definition image_of (e : entry F P) (W : wcs F) (m : P) (shape : Z * Z) : Prop :=
  wcs_from (w_image_wcs w) (w_head_wcs w) (w_piff w) (e_info e) (op_wcs op) W /\
  psf_from (w_piff w) (w_psfex w) (e_info e) (op_psf op) m /\
  shape_from (w_shape w) (e_info e) shape.

(** The box is on the CCD and keeps off its edges. *)
Definition box_fits (shape : Z * Z) (y0 x0 n : Z) : Prop :=
  let edge := Z.max 0 (op_edge_buffer op) in
  edge <= y0 /\ y0 + n <= fst shape - edge /\ edge <= x0 /\ x0 + n <= snd shape - edge.

(** The model in the piff file of the image. *)
Definition piff_model (e : entry F P) (m : P) : Prop :=
  exists path ccd W, s_piff_path (e_info e) = Some path /\ s_ccdnum (e_info e) = Some ccd /\
    w_piff w path ccd = Ok (m, W).

(** The files of an image have the shape that is recorded for it. *)
Definition files_agree (e : entry F P) : Prop :=
  forall W m shape pixels bmask, image_of e W m shape -> e_pixels e = Ok pixels -> e_bmask e = Ok bmask ->
    shaped (so_image pixels) shape /\ shaped (so_bkg pixels) shape /\ shaped (so_weight pixels) shape /\
    shaped bmask shape.

(** The position is not within the rough bounds of the image on the sky. *)
Definition off_the_image (ra dec : F) (e : entry F P) (o : se_object (F := F) (P := P)) : Prop :=
  make_object w op e = Ok o /\ se_contains_radec (w_radec_to_uv w) o ra dec = false.
End G.

(** ** Exact arithmetic *)
Section S.
Context {P : Type}.
Variable w : world R P.
Variable op : options R P.

(** The sky position is at column [x] and row [y], counted from zero. *)
Definition located (e : entry R P) (W : wcs R) (ra dec x y : R) : Prop :=
  own_image W (op_color op) ra dec = Ok (x + IZR (e_offset e), y + IZR (e_offset e))%R.

(** [n] is the size of the boxes: the slice size times the buffer fraction, cut to
    an integer and increased by one if needed to have the parity of the slice. *)
Definition box_of (box_size n : Z) : Prop :=
  n mod 2 = box_size mod 2 /\
  (n = Ztrunc (op_frac_buffer op * IZR box_size) \/
   n = Ztrunc (op_frac_buffer op * IZR box_size) + 1).

(** The [n] pixels from [start] on are centred on the position, up to half a
    pixel. *)
Definition centred (v : R) (start n : Z) : Prop :=
  (- / 2 <= v - (IZR start + (IZR n - 1) / 2) < / 2)%R.

(** The slice [s] with its PSF flag is cut out of an image. *)
Record kept_from (ra dec ra_psf dec_psf : R) (box_size : Z) (e : entry R P)
  (W : wcs R) (m : P) (shape : Z * Z) (s : SliceInputs.se_slice (F := R)) (flag : bool) : Prop := mkkept {
  kf_unflagged : e_image_flags e = 0;
  kf_id : SliceInputs.sl_image_id s = e_image_id e;
  kf_box : box_of box_size (SliceInputs.sl_box_size s);
  kf_fits : box_fits op shape (SliceInputs.sl_y_start s) (SliceInputs.sl_x_start s) (SliceInputs.sl_box_size s);
  kf_centred : exists x y, located e W ra dec x y /\
    centred x (SliceInputs.sl_x_start s) (SliceInputs.sl_box_size s) /\
    centred y (SliceInputs.sl_y_start s) (SliceInputs.sl_box_size s);
  (* pixels from the files, scaled to the common zero point *)
  kf_pixels : exists pixels bmask bm,
    e_pixels e = Ok pixels /\ e_bmask e = Ok bmask /\
    (if op_tape_bumps op then set_tape_bump_mask (so_ccdnum pixels) bmask = Ok bm else bm = bmask) /\
    let scale := zp_scale (w_pow10 w) (so_magzp pixels) in
    let window {A} (f : Z -> Z -> A) (a : img A) :=
      window_of f (SliceInputs.sl_y_start s) (SliceInputs.sl_x_start s) (SliceInputs.sl_box_size s) a in
    window (fun r c => (px (so_image pixels) r c - px (so_bkg pixels) r c) * scale)%R (SliceInputs.sl_image s) /\
    window (fun r c => px (so_weight pixels) r c / (scale * scale))%R (SliceInputs.sl_weight s) /\
    window (px bm) (SliceInputs.sl_bmask s) /\
    Forall2 (fun seed nz => exists nse,
      get_noise_image (w_normal w) (w_store w) (so_weight pixels) scale seed = Ok nse /\
      window (px nse) nz) (e_noise_seeds e) (SliceInputs.sl_noises s);
  (* the PSF model drawn at the PSF position *)
  kf_psf : exists x y q raw, located e W ra_psf dec_psf x y /\
    right_request (w_kind w m) (w_galsim_n w m) (e_offset e) x y q /\
    w_draw w m (mksw W (IZR (e_offset e)) (op_color op)) q = Ok raw /\
    normalised_of raw (SliceInputs.sl_psf s) /\
    nrows (SliceInputs.sl_psf s) = SliceInputs.sl_psf_box_size s /\
    ncols (SliceInputs.sl_psf s) = SliceInputs.sl_psf_box_size s /\
    centred_on x (SliceInputs.sl_psf_x_start s) (SliceInputs.sl_psf_box_size s) /\
    centred_on y (SliceInputs.sl_psf_y_start s) (SliceInputs.sl_psf_box_size s);
  (* if a piff model is drawn, that of the file is tested if so configured *)
  kf_flag : match op_piff_failure op, w_kind w m with
    | Some (mx, g), Piff => exists m' res, piff_model w e m' /\ w_sample w m' g (e_piff_seed e) = Ok res /\
                              bad_piff_model res mx = Ok flag
    | _, _ => flag = false
    end
}.

(** No box around the position fits on the image. *)
Definition no_box_fits (ra dec : R) (box_size : Z) (e : entry R P) (W : wcs R) (shape : Z * Z) : Prop :=
  exists x y n x0 y0, located e W ra dec x y /\ box_of box_size n /\ centred x x0 n /\ centred y y0 n /\
    ~ box_fits op shape y0 x0 n.

(** Nothing goes wrong with an image: its WCS, PSF model and shape can be found, its
    WCS has an answer for every position, its files can be read, its CCD is known if
    tape bumps are masked, it has a pixel with weight if noise is made, its
    PSF model can be drawn as an odd square and, if needed, be tested. *)
Record usable (e : entry R P) (W : wcs R) (m : P) (shape : Z * Z) : Prop := mkusable {
  us_image : image_of w op e W m shape;
  us_rows : 1 <= fst shape;
  us_cols : 1 <= snd shape;
  us_sky : forall x y, exists p, own_sky W (op_color op) x y = Ok p;
  us_pixel : forall ra dec, exists p, own_image W (op_color op) ra dec = Ok p;
  us_files : exists pixels bmask, e_pixels e = Ok pixels /\ e_bmask e = Ok bmask /\
    shaped (so_image pixels) shape /\ shaped (so_bkg pixels) shape /\ shaped (so_weight pixels) shape /\
    shaped bmask shape /\
    (op_tape_bumps op = true -> 1 <= so_ccdnum pixels <= 62) /\
    (e_noise_seeds e = [] \/ exists r c, inb (so_weight pixels) r c /\ (0 < px (so_weight pixels) r c)%R);
  us_psf : w_kind w m <> UnknownPsf;
  us_draw : forall q, exists raw, w_draw w m (mksw W (IZR (e_offset e)) (op_color op)) q = Ok raw /\
    nrows raw = ncols raw /\ nrows raw mod 2 = 1;
  us_sample : forall mx g, op_piff_failure op = Some (mx, g) -> w_kind w m = Piff ->
    exists m' res, piff_model w e m' /\ w_sample w m' g (e_piff_seed e) = Ok res /\ res <> []
}.
End S.
