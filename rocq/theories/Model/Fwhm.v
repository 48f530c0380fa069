(** Model of pizza_cutter/slice_utils/measure.py. *)
From Coq Require Import ZArith List.
From Verif Require Import Lib.Base Lib.Floats.
Import ListNotations.
Open Scope Z_scope.

Section Fwhm.
Context {F : Type} `{FloatOps F}.
(** [scipy.special.erf] and [np.pi]. *)
Variables (erf : F -> F) (pi : F).

(** measure.py:26 [image.max()]; numpy raises a ValueError for an empty array.
    (numpy propagates NaNs, the comparison used here does not.) *)
Definition image_max (image : img F) : result F :=
  match ravel image with
  | [] => Raise ValueError
  | a :: l => Ok (fold_left fmax l a)
  end.

(** measure.py:5-36 [measure_fwhm]. The image is an array of floats, so the
    in-place division of its copy (25-27) does not fail. *)
Definition measure_fwhm (image : img F) (smooth : F) : result F :=
  let thresh := fhalf in
  maxval <- image_max image ;;
  let nim := imap (fun v => fdiv v maxval) image in
  let arg := imap (fun v => fdiv (fsub v thresh) smooth) nim in
  let vals := imap (fun v => fmul fhalf (fadd fone (erf v))) arg in
  let area := fsum (ravel vals) in
  Ok (fmul (fofZ 2) (fsqrt (fdiv area pi))).

(** measure.py:5: the default of [smooth]. *)
Definition default_smooth : F := fdec 1 10.
End Fwhm.
