(** Vocabulary for the star masks. *)
From Coq Require Import ZArith List Bool Reals.
From Verif Require Import Lib.Base Lib.Floats Model.Gaia Spec.FloatSpec.
Import ListNotations.
Open Scope R_scope.

(** Value of a polynomial with the coefficients of the highest power first. *)
Fixpoint poly_value (coeffs : list R) (x : R) : R :=
  match coeffs with
  | [] => 0
  | c :: rest => c * x ^ length rest + poly_value rest x
  end.

(** A way of drawing masks in which a pixel is masked exactly if it is inside
    of a star; whether it is depends on the displacement from the pixel to the
    centre and on the radius only ([inside dx dy radius], for instance
    dx^2 + dy^2 < radius^2). *)
Definition draws (inside : R -> R -> R -> Prop)
  (draw : list (R * R * R) -> Z -> bool -> result (img Z)) : Prop :=
  forall stars n, exists m, draw stars n false = Ok m /\ nrows m = n /\ ncols m = n /\
    forall r c, inb m r c ->
      (px m r c <> 0%Z <->
       exists x y radius, In (x, y, radius) stars /\ inside (x - IZR c) (y - IZR r) radius).

(** The pixel in row [row] and column [col] of the coadd, counted from zero, is
    inside of a star of the catalogue that is not fainter than the limit. The
    WCS gives positions that start at [offset]. *)
Definition pixel_in_a_star (inside : R -> R -> R -> Prop) (sky2image : R -> R -> result (R * R))
  (radius_of : R -> R) (max_mag : R) (offset : Z) (catalogue : list star) (row col : R) : Prop :=
  exists s x y, In s catalogue /\ sky2image (st_ra s) (st_dec s) = Ok (x, y) /\
    st_mag s <= max_mag /\
    inside (x - IZR offset - col) (y - IZR offset - row) (radius_of (st_mag s)).

(** ** Double arithmetic *)

(** Masks drawn with a tolerance of [t] pixels: a masked pixel is less than [t]
    pixels outside of a disc, and a pixel more than [t] pixels inside of a disc is
    masked. [dist_euc] is the distance in the plane. *)
Definition ordinary_disc (d : f64 * f64 * f64) : Prop :=
  let '(x, y, radius) := d in
  exists vx vy q, f64_is x vx /\ f64_is y vy /\ f64_is radius q /\
    Rabs vx <= IZR (2 ^ 22) /\ Rabs vy <= IZR (2 ^ 22).

Definition draws_discs (t : R) (draw : list (f64 * f64 * f64) -> Z -> bool -> result (img Z)) : Prop :=
  forall discs n, Forall ordinary_disc discs ->
  exists m, draw discs n false = Ok m /\ nrows m = n /\ ncols m = n /\
    forall r c, inb m r c ->
      (px m r c <> 0%Z -> exists x y radius vx vy q, In (x, y, radius) discs /\
         f64_is x vx /\ f64_is y vy /\ f64_is radius q /\ dist_euc vx vy (IZR c) (IZR r) < q + t) /\
      ((exists x y radius vx vy q, In (x, y, radius) discs /\
         f64_is x vx /\ f64_is y vy /\ f64_is radius q /\ dist_euc vx vy (IZR c) (IZR r) < q - t) ->
       px m r c <> 0%Z).

(** The position that the WCS gives for the star and the radius of the star are
    numbers, and the position is less than a million pixels away. *)
Definition ordinary_star (sky2image : f64 -> f64 -> result (f64 * f64)) (radius_of : f64 -> f64)
  (s : star (F := f64)) : Prop :=
  (exists q, f64_is (radius_of (st_mag s)) q) /\
  forall x y, sky2image (st_ra s) (st_dec s) = Ok (x, y) ->
  exists vx vy, f64_is x vx /\ f64_is y vy /\ Rabs vx <= IZR (2 ^ 20) /\ Rabs vy <= IZR (2 ^ 20).

(** The star [s] is not fainter than the limit, has radius [q], and its centre is
    [d] pixels away from the position in row [row] and column [col]. *)
Definition star_at (sky2image : f64 -> f64 -> result (f64 * f64)) (radius_of : f64 -> f64) (max_mag : f64)
  (offset : Z) (row col : R) (s : star (F := f64)) (q d : R) : Prop :=
  fleb (st_mag s) max_mag = true /\ f64_is (radius_of (st_mag s)) q /\
  exists x y vx vy, sky2image (st_ra s) (st_dec s) = Ok (x, y) /\ f64_is x vx /\ f64_is y vy /\
    d = dist_euc (vx - IZR offset) (vy - IZR offset) col row.

(** Sizes of the terms of a polynomial. *)
Definition poly_size (coeffs : list R) (x : R) : R :=
  poly_value (map (fun c => Rabs c + 1) coeffs) (Rmax 1 (Rabs x)).
