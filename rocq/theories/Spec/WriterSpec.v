(** What a pizza slices file should contain. *)
From Coq Require Import ZArith Bool String List.
From Verif Require Import Lib.Base Lib.PyStr Lib.Floats Model.Writer.
Import ListNotations.
Open Scope list_scope.
Open Scope Z_scope.

Section WriterSpec.
Context {F : Type}.
Variables V E : Type.
Variable cast : string -> V -> V.
Variable isneg : V -> bool.
Notation results := (@results F V E).

(** Image [a] of the results [r] goes to extension [ext], converted to the
    type of extension [info]. The n-th extra noise image uses the type of the
    noise images. *)
Inductive belongs (r : results) : string -> string -> img V -> Prop :=
| b_image : belongs r "image_cutouts" "image_cutouts" (r_image V E r)
| b_bmask : belongs r "bmask_cutouts" "bmask_cutouts" (r_bmask V E r)
| b_ormask : belongs r "ormask_cutouts" "ormask_cutouts" (r_ormask V E r)
| b_weight : belongs r "weight_cutouts" "weight_cutouts" (r_weight V E r)
| b_mfrac : belongs r "mfrac_cutouts" "mfrac_cutouts" (r_mfrac V E r)
| b_noise : forall a, nth_error (r_noises V E r) 0 = Some a ->
    belongs r "noise_cutouts" "noise_cutouts" a
| b_extra : forall k a, (1 <= k)%nat -> nth_error (r_noises V E r) k = Some a ->
    belongs r ("noise" ++ dec (Z.of_nat k) ++ "_cutouts") "noise_cutouts" a
| b_psf : belongs r "psf" "psf" (r_psf V E r).

(** There is data for this slice. *)
Definition has_data (r : results) : Prop := r_weights V E r <> [].

(** Shapes as they come out of the coadding: square images of the box size,
    a square PSF image, and one noise image more than the extra ones. *)
Definition well_shaped (box psf_box n_extra : Z) (r : results) : Prop :=
  has_data r ->
  Z.of_nat (length (r_noises V E r)) = n_extra + 1 /\
  forall ext info a, belongs r ext info a ->
    nrows a = (if String.eqb ext "psf" then psf_box else box) /\
    ncols a = (if String.eqb ext "psf" then psf_box else box).

(** No negative weight or masked fraction, after conversion to the type that
    is stored. *)
Definition no_negatives (r : results) : Prop :=
  (forall y x, inb (r_weight V E r) y x -> isneg (cast "weight_cutouts" (px (r_weight V E r) y x)) = false) /\
  (forall y x, inb (r_mfrac V E r) y x -> isneg (cast "mfrac_cutouts" (px (r_mfrac V E r) y x)) = false).

(** Position [p] of the flattened extension is inside the region of slice
    [i], for images of [n] pixels. *)
Definition in_region (i n p : Z) : Prop := i * n <= p < (i + 1) * n.

End WriterSpec.
