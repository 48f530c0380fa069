(** Vocabulary for resampled images. *)
From Coq Require Import ZArith List Reals.
From Verif Require Import Lib.Base Lib.Floats Model.Lanczos Model.SeImage Model.Resample.
Open Scope Z_scope.

Section ResampleSpec.
Context {F : Type} {FO : FloatOps F}.
Variables (to_se : Z -> Z -> F * F) (area_se area_coadd : Z -> Z -> F).

(** Where pixel [(r, c)] of a coadd region that starts at [(y0, x0)] falls in an
    SE stamp that starts at [(sy, sx)]: row and column in the stamp. *)
Definition position (y0 x0 sy sx : Z) (r c : Z) : F * F :=
  let p := to_se (c + x0) (r + y0) in
  (fsub (snd p) (fofZ sy), fsub (fst p) (fofZ sx)).

(** The SE image in units of surface brightness: divided by the area of each
    pixel. *)
Definition brightness (im : img F) (sy sx : Z) : img F :=
  mkimg (nrows im) (ncols im) (fun r c => fdiv (px im r c) (area_se (c + sx) (r + sy))).

(** [out], of [n x n] pixels, is [im], of [m x m] pixels, resampled: every pixel is the kernel
    value of the surface brightness at the mapped position times the coadd
    pixel area; [edge] tells where the kernel has no support. *)
Definition resampled_image (im out : img F) (edge : img bool) (y0 x0 sy sx n m : Z) : Prop :=
  nrows im = m /\ ncols im = m /\ nrows out = n /\ ncols out = n /\
  forall r c, 0 <= r < n -> 0 <= c < n ->
  exists v, lanczos_point (brightness im sy sx) 3
              (fst (position y0 x0 sy sx r c)) (snd (position y0 x0 sy sx r c))
            = Ok (v, px edge r c) /\
            px out r c = fmul v (area_coadd (c + x0) (r + y0)).
End ResampleSpec.

(** The integer pixel that the masks are looked up at: truncation of the
    position plus one half. *)
Definition mask_index {F} {FO : FloatOps F} (v : F) : Z := int64_of (ftrunc (fadd v fhalf)).

(** [out] of [n x n] pixels is the mask [m] of an SE stamp, looked up at the
    pixel [idx r c] (row, column), with [BMASK_EDGE] where that is outside of
    an array of [nr x nc] pixels. *)
Definition looked_up (m out : img Z) (nr nc n : Z) (idx : Z -> Z -> Z * Z) : Prop :=
  nrows out = n /\ ncols out = n /\
  forall r c, 0 <= r < n -> 0 <= c < n ->
  let (i, j) := idx r c in
  (0 <= i < nr /\ 0 <= j < nc -> px out r c = px m i j) /\
  (~ (0 <= i < nr /\ 0 <= j < nc) -> px out r c = 2 ^ 29).

(** The pixel of a slice at which the masks are looked up. *)
Definition mask_at {F} {FO : FloatOps F} (to_se : Z -> Z -> F * F) (sl : slice_data (F := F))
  (y0 x0 r c : Z) : Z * Z :=
  let p := position to_se y0 x0 (sl_y_start sl) (sl_x_start sl) r c in
  (mask_index (fst p), mask_index (snd p)).

(** The mapped position of every pixel of a region can be rounded (is finite). *)
Definition finite_positions {F} {FO : FloatOps F} (to_se : Z -> Z -> F * F) (y0 x0 sy sx n : Z) : Prop :=
  forall r c, 0 <= r < n -> 0 <= c < n ->
    (exists k, ffloor (fst (position to_se y0 x0 sy sx r c)) = Some k) /\
    (exists k, ffloor (snd (position to_se y0 x0 sy sx r c)) = Some k).

(** Over the reals: pixel index [i] is what truncation towards zero of [v + 1/2]
    gives. *)
Definition truncated (v : R) (i : Z) : Prop :=
  ((- / 2 <= v /\ IZR i - / 2 <= v < IZR i + / 2) \/
   (v < - / 2 /\ IZR i - 3 / 2 < v <= IZR i - / 2))%R.

(** Positions that fit in the 64 bit integers used for pixel indices. *)
Definition int64_position (v : R) : Prop := (IZR (- 2 ^ 63) <= v < IZR (2 ^ 63 - 1))%R.

(** Mask values at a lookup position over the reals: [out] is the mask of pixel
    [(i, j)] of [m] if that is in the [nr x nc] array, else the edge bit. *)
Definition mask_value (m : img Z) (nr nc i j v : Z) : Prop :=
  (0 <= i < nr /\ 0 <= j < nc -> v = px m i j) /\
  (~ (0 <= i < nr /\ 0 <= j < nc) -> v = 2 ^ 29).

(** A pixel index that is not a number, or not a 64 bit integer. *)
Definition unrepresentable (v : option Z) : Prop :=
  match v with Some z => ~ (- 2 ^ 63 <= z < 2 ^ 63) | None => True end.
