(** Vocabulary for the object data: what the row of one slice has to say. *)
From Coq Require Import ZArith Reals.
From Verif Require Import Lib.Base Lib.Floats Spec.FloatSpec Spec.LocateSpec Model.ObjectData.
Open Scope Z_scope.

(** The row [o] describes slice number [i] whose stamp starts at the pixel
    [start] (row, column) of the coadd, in double arithmetic: positions are
    the exact numbers. The sky position and Jacobian are those of the WCS at
    [(x, y)], the pixel position of the centre plus the position offset. *)
Record describes (image2sky : f64 -> f64 -> result (f64 * f64))
  (get_jacobian : f64 -> f64 -> result (f64 * f64 * f64 * f64))
  (central buffer psf_box offset : Z) (i : nat) (start : Z * Z) (o : @object f64) : Prop :=
mkdescribes {
  d_id : ob_id o = Z.of_nat i;
  d_box : ob_box_size o = central + 2 * buffer;
  d_psf_box : ob_psf_box_size o = psf_box;
  d_file : ob_file_id o = -1;
  d_start_row : f64_is (ob_orig_start_row o) (IZR (fst start));
  d_start_col : f64_is (ob_orig_start_col o) (IZR (snd start));
  (* centre of the stamp in coadd pixels *)
  d_row : f64_is (ob_orig_row o) (stamp_centre central buffer (fst start));
  d_col : f64_is (ob_orig_col o) (stamp_centre central buffer (snd start));
  (* centre of the stamp in stamp pixels *)
  d_cutout_row : f64_is (ob_cutout_row o) (stamp_centre central buffer (fst start) - IZR (fst start));
  d_cutout_col : f64_is (ob_cutout_col o) (stamp_centre central buffer (snd start) - IZR (snd start));
  (* centre of the PSF image *)
  d_psf_row : f64_is (ob_psf_cutout_row o) ((IZR 0 + IZR (psf_box - 1)) / 2);
  d_psf_col : f64_is (ob_psf_cutout_col o) ((IZR 0 + IZR (psf_box - 1)) / 2);
  d_sky : exists x y,
    f64_is x (stamp_centre central buffer (snd start) + IZR offset) /\
    f64_is y (stamp_centre central buffer (fst start) + IZR offset) /\
    image2sky x y = Ok (ob_ra o, ob_dec o) /\
    get_jacobian x y = Ok (ob_dudcol o, ob_dudrow o, ob_dvdcol o, ob_dvdrow o)
}.
