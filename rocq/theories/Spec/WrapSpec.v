(** Specification vocabulary for angle wrapping. *)
From Coq Require Import ZArith Reals.
From Verif Require Import Lib.Floats Spec.FloatSpec.
Open Scope R_scope.

(** [y] is [x] up to whole turns of 360 degrees. *)
Definition same_angle (x y : R) : Prop := exists k : Z, y = x + 360 * IZR k.

(** [y] is [x] wrapped: same angle, in range; if [x] had to be moved up (down)
    the moving stops at the first value in range. *)
Record wrapped (x y : R) : Prop := {
  w_angle : same_angle x y;
  w_range : -180 <= y <= 180;
  w_inside : -180 <= x <= 180 -> y = x;
  w_from_below : x < -180 -> y < 180;
  w_from_above : 180 < x -> -180 < y
}.

(** A WCS in double arithmetic answers with the sky position ([lon], [lat]) up to
    [eps] degrees: its right ascension may be off by whole turns. Right ascensions are
    within two turns and declinations within 90 degrees. *)
Definition wcs_answers (p : f64 * f64) (lon lat eps : R) : Prop :=
  exists (r d : R) (k : Z),
    f64_is (fst p) r /\ f64_is (snd p) d /\ Rabs r <= 720 /\ Rabs d <= 90 /\
    Rabs (r - (lon + 360 * IZR k)) <= eps /\ Rabs (d - lat) <= eps.
