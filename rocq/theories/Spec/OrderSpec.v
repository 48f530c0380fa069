(** Vocabulary for the order of the slices. *)
From Coq Require Import ZArith List Bool Reals Permutation Sorted.
From Verif Require Import Lib.Base Lib.Floats Spec.FloatSpec.
Import ListNotations.
Open Scope Z_scope.

(** [argsort l] lists the indices of [l] so that the values do not decrease;
    nothing is said about equal values. *)
Definition is_argsort (argsort : list Z -> list Z) : Prop :=
  forall l, Permutation (argsort l) (zrange 0 (Z.of_nat (length l))) /\
    StronglySorted Z.le (map (fun k => nth (Z.to_nat k) l 0) (argsort l)).

(** The Hilbert curve: every point of the square of 8 x 8 cells has a distance
    of its own. *)
Definition is_curve (distance : Z -> Z -> result Z) : Prop :=
  (forall x y, 0 <= x < 8 -> 0 <= y < 8 -> exists d, distance x y = Ok d) /\
  (forall x y x' y' d, 0 <= x < 8 -> 0 <= y < 8 -> 0 <= x' < 8 -> 0 <= y' < 8 ->
     distance x y = Ok d -> distance x' y' = Ok d -> x = x' /\ y = y').

(** The position [v] on an axis of [n] pixels is in the [k]-th of 8 equal
    intervals; the first and the last one go on beyond the image. *)
Definition in_interval (n : Z) (v : R) (k : Z) : Prop :=
  0 <= k < 8 /\
  (k <> 0 -> (IZR k * (IZR n / 8) <= v)%R) /\ (k <> 7 -> (v < (IZR k + 1) * (IZR n / 8))%R).

(** Slice [s] is in the cell in column [x] and row [y] of the 8 x 8 cells of a
    coadd with [nrow] rows and [ncol] columns. [sky] lists the sky positions of
    the slices. *)
Definition in_cell (sky2image : R -> R -> result (R * R)) (nrow ncol : Z) (sky : list (R * R))
  (s x y : Z) : Prop :=
  exists ra dec col row, 0 <= s /\ nth_error sky (Z.to_nat s) = Some (ra, dec) /\
    sky2image ra dec = Ok (col, row) /\ in_interval ncol col x /\ in_interval nrow row y.

(** The same for positions in double arithmetic. *)
Definition in_cell_double (sky2image : f64 -> f64 -> result (f64 * f64)) (nrow ncol : Z) (sky : list (f64 * f64))
  (s x y : Z) : Prop :=
  exists (ra dec col row : f64) (c r : R), 0 <= s /\ nth_error sky (Z.to_nat s) = Some (ra, dec) /\
    sky2image ra dec = Ok (col, row) /\ f64_is col c /\ f64_is row r /\
    in_interval ncol c x /\ in_interval nrow r y.
