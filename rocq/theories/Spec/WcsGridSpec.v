(** Specification vocabulary for the WCS lookup tables. *)
From Coq Require Import ZArith List Reals.
From Verif Require Import Lib.Base Lib.Floats.
Open Scope R_scope.

(** The grid lines of an axis of [dim] pixels with step [delta]: the multiples of
    [delta] from 0 up to the first one that is not below [dim]. *)
Definition grid_line (dim delta a : Z) : Prop :=
  exists k, (0 <= k)%Z /\ a = (k * delta)%Z /\ (a < dim + delta)%Z.

(** [x] is inside an axis of [dim] pixels: from the outer edge of the first pixel
    to that of the last one, pixel centres being integers. *)
Definition on_axis (dim : Z) (x : R) : Prop := - (1 / 2) <= x <= IZR dim - 1 / 2.

(** An interpolation method that reproduces the data it is given. *)
Definition reproduces {F} (ct : list (F * F) -> list F -> F * F -> F) : Prop :=
  forall pts vals k p v, NoDup pts -> nth_error pts k = Some p -> nth_error vals k = Some v ->
  ct pts vals p = v.

(** The same for a method on rectangular grids. *)
Definition grid_reproduces (spline : list Z -> list Z -> img R -> R -> R -> R) : Prop :=
  forall xs ys t i j a b, NoDup xs -> NoDup ys -> nth_error xs i = Some a -> nth_error ys j = Some b ->
  spline xs ys t (IZR a) (IZR b) = px t (Z.of_nat i) (Z.of_nat j).
