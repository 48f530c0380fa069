(** Specification vocabulary for the width of an image. *)
From Coq Require Import ZArith List Reals.
From Verif Require Import Lib.Base Lib.Floats Spec.CoaddSpec Spec.FloatSpec.
Open Scope R_scope.

(** The smoothed number of pixels above half of the maximum [m]. *)
Definition area_above_half (erf : R -> R) (smooth m : R) (pixels : list R) : R :=
  total (map (fun v => (1 + erf ((v / m - 1 / 2) / smooth)) / 2) pixels).

(** The diameter of the disc with that area. *)
Definition disc_diameter (pi area : R) : R := 2 * sqrt (area / pi).

(** The image has a pixel that is positive. *)
Definition has_flux (image : img R) : Prop := exists r c, inb image r c /\ 0 < px image r c.

(** The function [erf] of doubles has the values of [E], which are between -1 and 1
    and not negative for arguments that are not. *)
Definition error_function (erf : f64 -> f64) (E : R -> R) : Prop :=
  (forall x v, f64_is x v -> f64_is (erf x) (E v)) /\
  (forall v, -1 <= E v <= 1) /\ (forall v, 0 <= v -> 0 <= E v).
