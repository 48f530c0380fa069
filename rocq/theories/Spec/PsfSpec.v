(** Vocabulary for PSF stamps. *)
From Coq Require Import ZArith List Reals.
From Flocq Require Import Core.Raux Core.Zaux.
From Verif Require Import Lib.Base Lib.Floats Spec.FloatSpec Model.PsfImage Spec.SeImageSpec Spec.CoaddSpec.
Open Scope Z_scope.

(** The stamp of [dim] pixels that starts at [start] is centred on the pixel
    nearest to the position. *)
Definition centred_on (v : R) (start dim : Z) : Prop :=
  dim mod 2 = 1 /\ nearest v (start + (dim - 1) / 2).

(** [a] is [raw] divided by its sum. *)
Definition normalised_of (raw a : img R) : Prop :=
  nrows a = nrows raw /\ ncols a = ncols raw /\
  forall r c, px a r c = (px raw r c / total (ravel raw))%R.

(** What has to be drawn: position in the convention of the model, subpixel
    offset of the position from the nearest pixel, stamp size, and corner of a
    stamp centred on that pixel (for piff). *)
Definition right_request (kind : psf_kind) (galsim_n off : Z) (x y : R) (q : draw_request (F := R)) : Prop :=
  exists kx ky, nearest x kx /\ nearest y ky /\
    dr_dx q = (x - IZR kx)%R /\ dr_dy q = (y - IZR ky)%R /\
    match kind with
    | Galsim => dr_x q = x /\ dr_y q = y /\ dr_n q mod 2 = 1 /\
                (galsim_n <= dr_n q / 5 <= galsim_n + 1 /\ dr_n q mod 5 = 0)
    | PsfEx => dr_x q = (x + IZR off)%R /\ dr_y q = (y + IZR off)%R /\ dr_n q = 33
    | Piff => dr_x q = (x + IZR off)%R /\ dr_y q = (y + IZR off)%R /\ dr_n q = 25 /\
              dr_xmin q + 12 = kx + off /\ dr_ymin q + 12 = ky + off
    | UnknownPsf => False
    end.

(** ** Doubles *)
(** Values [vs] of the pixels of a stamp that can be normalised: no cancellation
    that would leave a sum made of rounding errors. *)
Definition ordinary_stamp (vs : list R) : Prop :=
  Forall (fun v => Rabs v <= bpow radix2 300)%R vs /\ Z.of_nat (length vs) <= 2 ^ 40 /\
  (bpow radix2 (-300) <= Rabs (total vs))%R /\
  (INR (length vs) * bpow radix2 (-51) * total (map Rabs vs) <= Rabs (total vs))%R.

(** [a] is [raw] divided by its sum, up to rounding: [kappa] is the condition
    number of the sum, one for a stamp without negative pixels. *)
Definition divided_by_sum (raw a : img f64) : Prop :=
  nrows a = nrows raw /\ ncols a = ncols raw /\
  forall vs, Forall2 f64_is (ravel raw) vs -> ordinary_stamp vs ->
  let n := INR (length vs) in
  let kappa := (total (map Rabs vs) / Rabs (total vs))%R in
  exists ps, Forall2 f64_is (ravel a) ps /\
    (Rabs (total ps - 1) <= (2 * n + 2) * bpow radix2 (-52) * kappa)%R /\
    Forall2 (fun p v => Rabs (p - v / total vs) <=
      (2 * n + 1) * bpow radix2 (-52) * kappa * Rabs (v / total vs) + bpow radix2 (-1074))%R ps vs.

Definition near_value (e : R) (x : f64) (v : R) : Prop :=
  exists w, f64_is x w /\ (Rabs (w - v) <= e)%R.

(** [right_request] up to rounding, for the position [(x, y)]. *)
Definition right_request_double (kind : psf_kind) (galsim_n off : Z) (x y : R)
  (q : draw_request (F := f64)) : Prop :=
  exists kx ky,
    (Rabs (x - IZR kx) <= / 2 + bpow radix2 (-20))%R /\ (Rabs (y - IZR ky) <= / 2 + bpow radix2 (-20))%R /\
    near_value (bpow radix2 (-52)) (dr_dx q) (x - IZR kx) /\
    near_value (bpow radix2 (-52)) (dr_dy q) (y - IZR ky) /\
    match kind with
    | Galsim => f64_is (dr_x q) x /\ f64_is (dr_y q) y /\ dr_n q mod 2 = 1 /\
                (galsim_n <= dr_n q / 5 <= galsim_n + 1 /\ dr_n q mod 5 = 0)
    | PsfEx => near_value (bpow radix2 (-20)) (dr_x q) (x + IZR off) /\
               near_value (bpow radix2 (-20)) (dr_y q) (y + IZR off) /\ dr_n q = 33
    | Piff => near_value (bpow radix2 (-20)) (dr_x q) (x + IZR off) /\
              near_value (bpow radix2 (-20)) (dr_y q) (y + IZR off) /\ dr_n q = 25 /\
              dr_xmin q + 12 = kx + off /\ dr_ymin q + 12 = ky + off
    | UnknownPsf => False
    end.
