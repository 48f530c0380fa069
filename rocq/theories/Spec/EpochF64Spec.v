(** Vocabulary for the images that contribute to a slice, in double arithmetic. *)
From Coq Require Import ZArith List Bool String Reals.
From Coq Require Import List.
From Flocq Require Import Core.Raux Core.Zaux.
From Verif Require Import Lib.Base Lib.Floats Model.Noise Model.SeWcs Model.TapeBumps Model.SeImage Model.PsfImage Model.Piff
  Model.SliceInputs Model.Epoch
  Spec.FloatSpec Spec.SeImageSpec Spec.SeWcsSpec Spec.PsfSpec Spec.EpochSpec.
Import ListNotations.
Open Scope list_scope.
Open Scope Z_scope.

Section S.
Context {P : Type}.
Variable w : world f64 P.
Variable op : options f64 P.

(** The WCS answers with finite doubles for this position; they put it at
    column [vx] and row [vy], counted from zero. *)
Definition located_double (e : entry f64 P) (W : wcs f64) (ra dec : f64) (vx vy : R) : Prop :=
  exists a b va vb, own_image W (op_color op) ra dec = Ok (a, b) /\ f64_is a va /\ f64_is b vb /\
    vx = (va - IZR (e_offset e))%R /\ vy = (vb - IZR (e_offset e))%R.

(** The answers of the WCS for a position are finite and not absurdly large. *)
Definition ordinary_position (e : entry f64 P) (W : wcs f64) (ra dec : f64) : Prop :=
  forall a b, own_image W (op_color op) ra dec = Ok (a, b) ->
  exists va vb, f64_is a va /\ f64_is b vb /\
    (Rabs va <= bpow radix2 29)%R /\ (Rabs vb <= bpow radix2 29)%R.

(** The [n] pixels from [start] on are centred on the position, up to half a
    pixel and rounding. *)
Definition centred_double (v : R) (start n : Z) : Prop :=
  (Rabs (v - (IZR start + (IZR n - 1) / 2)) <= / 2 + bpow radix2 (-19))%R.

(** [n] is the size of the boxes: [size] cut to an integer and increased by one
    if needed to have the parity of the slice. *)
Definition box_of_double (size : R) (box_size n : Z) : Prop :=
  n mod 2 = box_size mod 2 /\ (n = Ztrunc size \/ n = Ztrunc size + 1).

(** [kept_from] of Spec/EpochSpec.v, up to the rounding of positions and of the
    normalisation of the PSF. [frac] is the value of the buffer fraction. *)
Record kept_from_double (frac : R) (ra dec ra_psf dec_psf : f64) (box_size : Z) (e : entry f64 P)
  (W : wcs f64) (m : P) (shape : Z * Z) (s : SliceInputs.se_slice (F := f64)) (flag : bool) : Prop := mkkeptd {
  kd_unflagged : e_image_flags e = 0;
  kd_id : SliceInputs.sl_image_id s = e_image_id e;
  kd_box : box_of_double (rnd64 (frac * IZR box_size)) box_size (SliceInputs.sl_box_size s);
  kd_fits : box_fits op shape (SliceInputs.sl_y_start s) (SliceInputs.sl_x_start s) (SliceInputs.sl_box_size s);
  kd_centred : exists x y, located_double e W ra dec x y /\
    centred_double x (SliceInputs.sl_x_start s) (SliceInputs.sl_box_size s) /\
    centred_double y (SliceInputs.sl_y_start s) (SliceInputs.sl_box_size s);
  kd_pixels : exists pixels bmask bm,
    e_pixels e = Ok pixels /\ e_bmask e = Ok bmask /\
    (if op_tape_bumps op then set_tape_bump_mask (so_ccdnum pixels) bmask = Ok bm else bm = bmask) /\
    let scale := zp_scale (w_pow10 w) (so_magzp pixels) in
    let window {A} (f : Z -> Z -> A) (a : img A) :=
      window_of f (SliceInputs.sl_y_start s) (SliceInputs.sl_x_start s) (SliceInputs.sl_box_size s) a in
    window (fun r c => fmul (fsub (px (so_image pixels) r c) (px (so_bkg pixels) r c)) scale)
      (SliceInputs.sl_image s) /\
    window (fun r c => fdiv (px (so_weight pixels) r c) (fmul scale scale)) (SliceInputs.sl_weight s) /\
    window (px bm) (SliceInputs.sl_bmask s) /\
    Forall2 (fun seed nz => exists nse,
      get_noise_image (w_normal w) (w_store w) (so_weight pixels) scale seed = Ok nse /\
      window (px nse) nz) (e_noise_seeds e) (SliceInputs.sl_noises s);
  kd_psf : exists x y q raw, located_double e W ra_psf dec_psf x y /\
    right_request_double (w_kind w m) (w_galsim_n w m) (e_offset e) (rnd64 x) (rnd64 y) q /\
    w_draw w m (mksw W (fofZ (e_offset e)) (op_color op)) q = Ok raw /\
    divided_by_sum raw (SliceInputs.sl_psf s) /\
    nrows (SliceInputs.sl_psf s) = SliceInputs.sl_psf_box_size s /\
    ncols (SliceInputs.sl_psf s) = SliceInputs.sl_psf_box_size s /\
    SliceInputs.sl_psf_box_size s mod 2 = 1 /\
    centred_double x (SliceInputs.sl_psf_x_start s) (SliceInputs.sl_psf_box_size s) /\
    centred_double y (SliceInputs.sl_psf_y_start s) (SliceInputs.sl_psf_box_size s);
  kd_flag : match op_piff_failure op, w_kind w m with
    | Some (mx, g), Piff => exists m' res, piff_model w e m' /\ w_sample w m' g (e_piff_seed e) = Ok res /\
                              bad_piff_model res mx = Ok flag
    | _, _ => flag = false
    end
}.

(** No box around the position fits on the image. *)
Definition no_box_fits_double (frac : R) (ra dec : f64) (box_size : Z) (e : entry f64 P) (W : wcs f64)
  (shape : Z * Z) : Prop :=
  exists x y n x0 y0, located_double e W ra dec x y /\ box_of_double (rnd64 (frac * IZR box_size)) box_size n /\
    centred_double x x0 n /\ centred_double y y0 n /\ ~ box_fits op shape y0 x0 n.

(** An image whose numbers are of ordinary size: its position offset, the
    answers of its WCS for the two positions, its drawn PSFs. *)
Definition ordinary_image (ra dec ra_psf dec_psf : f64) (e : entry f64 P) : Prop :=
  Z.abs (e_offset e) <= 2 ^ 20 /\
  forall W m shape, image_of w op e W m shape ->
    ordinary_position e W ra dec /\ ordinary_position e W ra_psf dec_psf /\
    forall s q raw, w_draw w m s q = Ok raw -> 0 < nrows raw <= 2 ^ 30.
End S.
