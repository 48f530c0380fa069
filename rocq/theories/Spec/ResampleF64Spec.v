(** Vocabulary for images resampled in double arithmetic. *)
From Coq Require Import ZArith List Reals.
From Flocq Require Import Core.Zaux Core.Raux.
From Verif Require Import Lib.Base Lib.Floats Spec.FloatSpec Spec.LanczosSpec.
Open Scope R_scope.

(** The Lanczos kernel of size 3 with the approximant of sinc in exact arithmetic. *)
Definition kernel3 (sinc : R -> R) (row col : R) (i j : Z) : R :=
  (sinc (col - IZR j) * sinc ((col - IZR j) / 3)) * (sinc (row - IZR i) * sinc ((row - IZR i) / 3)).

Section Double.
Variables (to_se : Z -> Z -> f64 * f64) (area_se area_coadd : Z -> Z -> f64) (sinc : R -> R).

(** Pixel [(r, c)] of a coadd region that starts at [(y0, x0)] falls at row [row]
    and column [col] of an SE stamp that starts at [(sy, sx)]: the difference of
    the mapped position and the start, rounded. *)
Definition falls_at (y0 x0 sy sx r c : Z) (row col : R) : Prop :=
  exists y x, f64_is (snd (to_se (c + x0)%Z (r + y0)%Z)) y /\ f64_is (fst (to_se (c + x0)%Z (r + y0)%Z)) x /\
    row = rnd64 (y - IZR sy) /\ col = rnd64 (x - IZR sx) /\
    Rabs (y - IZR sy) <= 2 ^ 52 /\ Rabs (x - IZR sx) <= 2 ^ 52 /\
    (Z.abs sy <= 2 ^ 53)%Z /\ (Z.abs sx <= 2 ^ 53)%Z.

(** In the kernel window around [(row, col)] the stamp [im] of [m x m] pixels has
    finite values [val], pixel areas [area], and surface brightness at most [M]. *)
Definition bright_window (im : img f64) (sy sx m : Z) (row col : R) (val area : Z -> Z -> R) (M : R) : Prop :=
  forall i j, (0 <= i < m)%Z -> (0 <= j < m)%Z -> in_window 3 row i -> in_window 3 col j ->
    f64_is (px im i j) (val i j) /\ f64_is (area_se (j + sx)%Z (i + sy)%Z) (area i j) /\
    area i j <> 0 /\ Rabs (val i j / area i j) <= M.

(** [out], of [n x n] pixels, is [im] resampled: every pixel is the kernel sum of
    surface brightness around the mapped position times the coadd pixel area [B], up to
    2^-27 of [M B]. *)
Definition resampled_double (im out : img f64) (y0 x0 sy sx n m : Z) : Prop :=
  nrows out = n /\ ncols out = n /\
  forall r c row col val area B M,
    (0 <= r < n)%Z -> (0 <= c < n)%Z -> falls_at y0 x0 sy sx r c row col ->
    f64_is (area_coadd (c + x0)%Z (r + y0)%Z) B -> Rabs B <= bpow radix2 90 ->
    0 <= M <= bpow radix2 800 -> bright_window im sy sx m row col val area M ->
    exists w s, f64_is (px out r c) w /\
      window_sum m m 3 row col (fun i j => val i j / area i j * kernel3 sinc row col i j) s /\
      Rabs (w - s * B) <= bpow radix2 (-27) * (M * Rabs B) + (Rabs B + 1) * bpow radix2 (-990).
End Double.
