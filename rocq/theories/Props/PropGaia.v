(** C69: star masks. *)
From Coq Require Import ZArith List Bool Reals Lra Lia.
From Verif Require Import Lib.Base Lib.Floats Model.Gaia Spec.GaiaSpec Proofs.BaseFacts Proofs.GaiaProofs.
Import ListNotations.
Open Scope Z_scope.

(** C69, exact arithmetic: without symmetrization a pixel of the slice that
    starts at row [start_row] and column [start_col] is masked exactly if that
    pixel of the coadd is inside of a star not fainter than the limit, of the
    radius given by the polynomial. *)
Theorem C69_mask_is_the_stars :
  forall (inside : R -> R -> R -> Prop) draw sky2image (pow10 to_f4 : R -> R) offset catalogue max_mag
    coeffs start_row start_col n stars,
  draws inside draw -> read_gaia_stars sky2image offset catalogue = Ok stars ->
  exists m, build_gaia_star_mask pow10 to_f4 draw stars max_mag coeffs start_col start_row n false = Ok m /\
    nrows m = n /\ ncols m = n /\
    forall r c, inb m r c ->
      (px m r c = true <->
       pixel_in_a_star inside sky2image (fun mag => to_f4 (pow10 (poly_value coeffs mag))) max_mag offset
         catalogue (start_row + IZR r) (start_col + IZR c)).
Proof. intros. eapply mask_spec; eassumption. Qed.

(** C69: so two slices agree about the pixels that they share. *)
Theorem C69_overlapping_slices_agree :
  forall (inside : R -> R -> R -> Prop) draw sky2image (pow10 to_f4 : R -> R) offset catalogue max_mag
    coeffs (row1 col1 row2 col2 : Z) n stars m1 m2,
  draws inside draw -> read_gaia_stars sky2image offset catalogue = Ok stars ->
  build_gaia_star_mask pow10 to_f4 draw stars max_mag coeffs (IZR col1) (IZR row1) n false = Ok m1 ->
  build_gaia_star_mask pow10 to_f4 draw stars max_mag coeffs (IZR col2) (IZR row2) n false = Ok m2 ->
  forall r1 c1 r2 c2, 0 <= r1 < n -> 0 <= c1 < n -> 0 <= r2 < n -> 0 <= c2 < n ->
  row1 + r1 = row2 + r2 -> col1 + c1 = col2 + c2 -> px m1 r1 c1 = px m2 r2 c2.
Proof.
  intros inside draw s2i pow10 to_f4 off cat mx coeffs row1 col1 row2 col2 n stars m1 m2 Hd Hr E1 E2
    r1 c1 r2 c2 B1 B2 B3 B4 Er Ec.
  destruct (mask_spec inside draw s2i pow10 to_f4 off cat mx coeffs (IZR row1) (IZR col1) n stars Hd Hr)
    as (k1 & F1 & N1 & N1' & H1).
  destruct (mask_spec inside draw s2i pow10 to_f4 off cat mx coeffs (IZR row2) (IZR col2) n stars Hd Hr)
    as (k2 & F2 & N2 & N2' & H2).
  rewrite E1 in F1. rewrite E2 in F2. injection F1 as <-. injection F2 as <-.
  specialize (H1 r1 c1 ltac:(split; lia)). specialize (H2 r2 c2 ltac:(split; lia)).
  rewrite <- !plus_IZR in H1, H2. rewrite Er, Ec in H1.
  destruct (px m1 r1 c1), (px m2 r2 c2); try reflexivity.
  - symmetry. apply H2, H1. reflexivity.
  - apply H1, H2. reflexivity.
Qed.

(** C69, any arithmetic: stars fainter than the limit, or without a magnitude
    (NaN), have no influence on the mask. *)
Theorem C69_faint_stars_ignored :
  forall (F : Type) (FO : FloatOps F) (pow10 to_f4 : F -> F) draw stars max_mag coeffs start_col start_row n sym,
  build_gaia_star_mask pow10 to_f4 draw stars max_mag coeffs start_col start_row n sym =
  build_gaia_star_mask pow10 to_f4 draw
    (filter (fun p => fleb (st_mag (pl_star p)) max_mag) stars) max_mag coeffs start_col start_row n sym.
Proof. intros. apply faint_ignored. Qed.

(** C69, any arithmetic: the table that is used, and stored in the file, has
    all stars in the order of the catalogue with positions that start at 0; it
    exists unless the WCS fails for a star. *)
Theorem C69_catalogue_positions :
  forall (F : Type) (FO : FloatOps F) (sky2image : F -> F -> result (F * F)) offset catalogue,
  (forall stars, read_gaia_stars sky2image offset catalogue = Ok stars ->
     Forall2 (fun s p => pl_star p = s /\ exists x y, sky2image (st_ra s) (st_dec s) = Ok (x, y) /\
                pl_x p = fsub x (fofZ offset) /\ pl_y p = fsub y (fofZ offset)) catalogue stars) /\
  (forall e, read_gaia_stars sky2image offset catalogue = Raise e ->
     exists s, In s catalogue /\ sky2image (st_ra s) (st_dec s) = Raise e) /\
  ((forall s, In s catalogue -> exists p, sky2image (st_ra s) (st_dec s) = Ok p) ->
     exists stars, read_gaia_stars sky2image offset catalogue = Ok stars).
Proof.
  intros. split; [apply read_ok|]. split; [apply read_raises|apply read_total].
Qed.

(** Concrete: discs can be drawn, and a star of magnitude 15 covers the pixel
    at row 11, column 12 of the coadd. *)
Definition disc (dx dy radius : R) : Prop := (dx * dx + dy * dy < radius * radius)%R.
Definition draw_discs (stars : list (R * R * R)) (n : Z) (sym : bool) : result (img Z) :=
  Ok (mkimg n n (fun r c =>
    if existsb (fun s => let '(x, y, q) := s in
          if Rlt_dec ((x - IZR c) * (x - IZR c) + (y - IZR r) * (y - IZR r)) (q * q) then true else false) stars
    then 1 else 0)).

Example C69_draws_discs : draws disc draw_discs.
Proof.
  intros stars n. eexists. split; [reflexivity|]. split; [reflexivity|]. split; [reflexivity|].
  intros r c _. cbn [px]. destruct (existsb _ stars) eqn:E.
  - split; [intros _|lia]. apply existsb_exists in E. destruct E as ([[x y] q] & I & H).
    exists x, y, q. split; [exact I|]. destruct (Rlt_dec _ _) in H; [assumption|discriminate].
  - split; [congruence|]. intros (x & y & q & I & H). exfalso.
    assert (X : existsb (fun s => let '(x, y, q) := s in
      if Rlt_dec ((x - IZR c) * (x - IZR c) + (y - IZR r) * (y - IZR r)) (q * q) then true else false) stars = true).
    { apply existsb_exists. exists (x, y, q). split; [exact I|]. destruct (Rlt_dec _ _); [reflexivity|contradiction]. }
    congruence.
Qed.

Example C69_example : pixel_in_a_star disc (fun ra dec => Ok (ra, dec)) (fun m => 20 - m)%R 18 1
  [mkstar 50%R 50%R 19%R; mkstar 14%R 13%R 15%R] 11 12.
Proof.
  exists (mkstar 14%R 13%R 15%R), 14%R, 13%R. split; [right; left; reflexivity|].
  split; [reflexivity|]. cbn [st_mag]. unfold disc. split; lra.
Qed.

Print Assumptions C69_mask_is_the_stars.
Print Assumptions C69_overlapping_slices_agree.
Print Assumptions C69_faint_stars_ignored.
Print Assumptions C69_catalogue_positions.
