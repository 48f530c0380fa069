(** Vocabulary for affine maps of the plane and bounding boxes, over R. *)
From Coq Require Import List Reals.
From Verif Require Import Lib.Floats Spec.FloatSpec.
Open Scope R_scope.

(** The affine map with matrix ((a b) (c d)) that sends (px, py) to (0, 0). *)
Definition affine_u (a b px py x y : R) : R := a * (x - px) + b * (y - py).

(** [f] has partial derivatives [fx] and [fy] at [(x, y)]. *)
Definition partials (f : R -> R -> R) (x y fx fy : R) : Prop :=
  derivable_pt_lim (fun t => f t y) x fx /\ derivable_pt_lim (fun t => f x t) y fy.

(** [lo] and [hi] are the least and the greatest value of [f] on the
    rectangle [xl, xh] x [yl, yh]. *)
Definition range_on (f : R -> R -> R) (xl xh yl yh lo hi : R) : Prop :=
  (forall x y, xl <= x <= xh -> yl <= y <= yh -> lo <= f x y <= hi) /\
  (exists x y, xl <= x <= xh /\ yl <= y <= yh /\ f x y = lo) /\
  (exists x y, xl <= x <= xh /\ yl <= y <= yh /\ f x y = hi).

(** The doubles [xs] have the values [vs], none larger than [B] in size. *)
Definition doubles_at_most (xs : list f64) (vs : list R) (B : R) : Prop :=
  Forall2 (fun x v => f64_is x v /\ Rabs v <= B) xs vs.
