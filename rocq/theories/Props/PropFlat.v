(** C67: resampling a constant image. *)
From Coq Require Import ZArith List Bool Reals Lia Lra.
From Flocq Require Import Core.
From Verif Require Import Lib.Base Lib.Floats Model.Lanczos Spec.LanczosSpec
  Proofs.BaseFacts Proofs.LanczosProofs Proofs.FlatProofs.
Import ListNotations.
Open Scope R_scope.

(** C67: where the window lies inside of the image and the image is constant
    on it, the resampled value is that constant up to a relative error that
    depends on the kernel size only; 1.15 percent for the size 3 that the
    coadding uses. *)
Theorem C67_constant_images :
  forall (im : img R) (a : Z) (y x v lev : R) (e : bool),
  (1 <= a <= 3)%Z ->
  (forall r c, in_window a y r -> in_window a x c -> inb im r c /\ px im r c = lev) ->
  lanczos_point im a y x = Ok (v, e) ->
  (a = 3%Z -> Rabs (v - lev) <= 115 / 10 ^ 4 * Rabs lev) /\
  (a = 2%Z -> Rabs (v - lev) <= 384 / 10 ^ 4 * Rabs lev) /\
  (a = 1%Z -> Rabs (v - lev) <= 3431 / 10 ^ 4 * Rabs lev).
Proof. exact flat_error. Qed.

(** ... the size 3 kernel never amplifies by more than rounding of its
    coefficients. *)
Theorem C67_no_amplification :
  forall (im : img R) (y x v lev : R) (e : bool), 0 <= lev ->
  (forall r c, in_window 3 y r -> in_window 3 x c -> inb im r c /\ px im r c = lev) ->
  lanczos_point im 3 y x = Ok (v, e) ->
  9886 / 10 ^ 4 * lev <= v <= 100003 / 10 ^ 5 * lev.
Proof. exact flat_range. Qed.

(** C67: the kernel is not normalised: half way between pixels a constant
    image loses more than 1.1 percent. *)
Theorem C67_constant_not_preserved :
  forall (im : img R) (i j : Z) (v lev : R) (e : bool), 0 < lev ->
  (forall r c, in_window 3 (IZR i + 1 / 2) r -> in_window 3 (IZR j + 1 / 2) c ->
     inb im r c /\ px im r c = lev) ->
  lanczos_point im 3 (IZR i + 1 / 2) (IZR j + 1 / 2) = Ok (v, e) ->
  v < 989 / 1000 * lev.
Proof. exact flat_half. Qed.

(** Concrete: the hypotheses hold in the middle of a 20 x 20 image, and the
    call succeeds there. *)
Example C67_example :
  (forall r c, in_window 3 (IZR 9 + 1 / 2) r -> in_window 3 (IZR 9 + 1 / 2) c ->
     inb (full 20 20 (7 : R)) r c /\ px (full 20 20 (7 : R)) r c = 7) /\
  exists v e, lanczos_point (full 20 20 (7 : R)) 3 (IZR 9 + 1 / 2) (IZR 9 + 1 / 2) = Ok (v, e).
Proof.
  split.
  - intros r c Hr Hc. unfold in_window in *. unfold inb, full. cbn [nrows ncols px].
    assert (0 <= r)%Z by (apply le_IZR; lra). assert (r < 20)%Z by (apply lt_IZR; lra).
    assert (0 <= c)%Z by (apply le_IZR; lra). assert (c < 20)%Z by (apply lt_IZR; lra).
    repeat split; assumption.
  - destruct (point_ok (full 20 20 (7 : R)) 3 (IZR 9 + 1 / 2) (IZR 9 + 1 / 2)) as (v & Hv). eauto.
Qed.

Print Assumptions C67_constant_images.
Print Assumptions C67_no_amplification.
Print Assumptions C67_constant_not_preserved.
