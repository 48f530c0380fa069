(** C69 in double arithmetic. *)
From Coq Require Import ZArith List Bool Reals Lra Lia SpecFloat.
From Flocq Require Import Core BinarySingleNaN.
From Coq Require Import List.
From Verif Require Import Lib.Base Lib.Floats Model.Gaia Spec.FloatSpec Spec.GaiaSpec Proofs.BaseFacts
  Proofs.F64Facts Proofs.RoundSum Proofs.GaiaProofs Proofs.GaiaF64.
Import ListNotations.
Open Scope R_scope.

(** C69: the mask of the slice which starts at row [vrow] and column [vcol], drawn
    with a tolerance of [t] pixels. A masked pixel is less than t + 2^-29 pixels
    outside of a star of the catalogue that is not fainter than the limit, and a pixel
    more than t + 2^-29 pixels inside of such a star is masked. Nothing is asked of
    the fainter stars. *)
Theorem C69_mask_is_the_stars_double :
  forall t draw sky2image (pow10 to_f4 : f64 -> f64) offset catalogue max_mag coeffs
    start_row start_col vrow vcol n stars,
  let radius_of mag := to_f4 (pow10 (polyval coeffs mag)) in
  draws_discs t draw -> read_gaia_stars sky2image offset catalogue = Ok stars ->
  (forall s, In s catalogue -> fleb (st_mag s) max_mag = true -> ordinary_star sky2image radius_of s) ->
  (Z.abs offset <= 2 ^ 20)%Z -> f64_is start_row vrow -> f64_is start_col vcol ->
  Rabs vrow <= IZR (2 ^ 20) -> Rabs vcol <= IZR (2 ^ 20) ->
  exists m, build_gaia_star_mask pow10 to_f4 draw stars max_mag coeffs start_col start_row n false = Ok m /\
    nrows m = n /\ ncols m = n /\
    forall r c, inb m r c ->
      (px m r c = true -> exists s q d, In s catalogue /\
         star_at sky2image radius_of max_mag offset (vrow + IZR r) (vcol + IZR c) s q d /\
         d < q + (t + bpow radix2 (-29))) /\
      (forall s q d, In s catalogue ->
         star_at sky2image radius_of max_mag offset (vrow + IZR r) (vcol + IZR c) s q d ->
         d < q - (t + bpow radix2 (-29)) -> px m r c = true).
Proof. intros. now apply mask_double. Qed.

(** C69: two slices agree about a pixel that they share, unless it is within
    t + 2^-29 pixels of the edge of a star. *)
Theorem C69_overlapping_slices_agree_double :
  forall t draw sky2image (pow10 to_f4 : f64 -> f64) offset catalogue max_mag coeffs
    (row1 col1 row2 col2 : Z) n stars m1 m2,
  let radius_of mag := to_f4 (pow10 (polyval coeffs mag)) in
  draws_discs t draw -> read_gaia_stars sky2image offset catalogue = Ok stars ->
  (forall s, In s catalogue -> fleb (st_mag s) max_mag = true -> ordinary_star sky2image radius_of s) ->
  (Z.abs offset <= 2 ^ 20)%Z ->
  (Z.abs row1 <= 2 ^ 20 /\ Z.abs col1 <= 2 ^ 20 /\ Z.abs row2 <= 2 ^ 20 /\ Z.abs col2 <= 2 ^ 20)%Z ->
  build_gaia_star_mask pow10 to_f4 draw stars max_mag coeffs (fofZ col1) (fofZ row1) n false = Ok m1 ->
  build_gaia_star_mask pow10 to_f4 draw stars max_mag coeffs (fofZ col2) (fofZ row2) n false = Ok m2 ->
  forall r1 c1 r2 c2, (0 <= r1 < n)%Z -> (0 <= c1 < n)%Z -> (0 <= r2 < n)%Z -> (0 <= c2 < n)%Z ->
  (row1 + r1 = row2 + r2)%Z -> (col1 + c1 = col2 + c2)%Z ->
  px m1 r1 c1 = px m2 r2 c2 \/
  exists s q d, In s catalogue /\
    star_at sky2image radius_of max_mag offset (IZR (row1 + r1)) (IZR (col1 + c1)) s q d /\
    Rabs (d - q) <= t + bpow radix2 (-29).
Proof.
  intros t draw s2i pow10 to_f4 off cat mx coeffs row1 col1 row2 col2 n stars m1 m2 radius_of Hd Hr Hs Ho
    (A1 & A2 & A3 & A4) E1 E2 r1 c1 r2 c2 B1 B2 B3 B4 Er Ec.
  assert (K : forall k, (Z.abs k <= 2 ^ 20)%Z -> f64_is (fofZ k : f64) (IZR k) /\ Rabs (IZR k) <= IZR (2 ^ 20)).
  { intros k Hk. split; [apply f64_ofZ_is; lia|]. rewrite <- abs_IZR. apply IZR_le. exact Hk. }
  destruct (K _ A1) as [R1 R1'], (K _ A2) as [C1 C1'], (K _ A3) as [R2 R2'], (K _ A4) as [C2 C2'].
  destruct (mask_double t draw s2i pow10 to_f4 off cat mx coeffs _ _ _ _ n stars Hd Hr Hs Ho R1 C1 R1' C1')
    as (k1 & F1 & N1 & N1' & H1).
  destruct (mask_double t draw s2i pow10 to_f4 off cat mx coeffs _ _ _ _ n stars Hd Hr Hs Ho R2 C2 R2' C2')
    as (k2 & F2 & N2 & N2' & H2).
  rewrite E1 in F1. rewrite E2 in F2. injection F1 as <-. injection F2 as <-.
  destruct (H1 r1 c1 ltac:(split; lia)) as [P1 Q1]. destruct (H2 r2 c2 ltac:(split; lia)) as [P2 Q2].
  rewrite <- !plus_IZR in P1, Q1, P2, Q2. rewrite <- Er, <- Ec in P2, Q2.
  destruct (px m1 r1 c1) eqn:X1, (px m2 r2 c2) eqn:X2; try (left; reflexivity); right.
  - destruct (P1 eq_refl) as (s & q & d & I & S & D). exists s, q, d. split; [exact I|]. split; [exact S|].
    apply Rabs_le. destruct (Rlt_le_dec d (q - (t + bpow radix2 (-29)))) as [L|L]; [|lra].
    discriminate (Q2 s q d I S L).
  - destruct (P2 eq_refl) as (s & q & d & I & S & D). exists s, q, d. split; [exact I|]. split; [exact S|].
    apply Rabs_le. destruct (Rlt_le_dec d (q - (t + bpow radix2 (-29)))) as [L|L]; [|lra].
    discriminate (Q1 s q d I S L).
Qed.

(** C69: the logarithm of the radius is the value of the polynomial at the
    magnitude, up to three roundings for every coefficient. *)
Theorem C69_radius_polynomial_double :
  forall coeffs vcs (mag : f64) v,
  Forall2 f64_is coeffs vcs -> f64_is mag v -> (Z.of_nat (length vcs) <= 2 ^ 40)%Z ->
  poly_size vcs v <= bpow radix2 900 ->
  exists z, f64_is (polyval coeffs mag) z /\
    Rabs (z - poly_value vcs v) <= 3 * INR (length vcs) * (bpow radix2 (-53) * poly_size vcs v).
Proof. exact polyval_double. Qed.

(** ** Concrete case: discs can be drawn without tolerance. One star is too faint; the other,
    of magnitude 15, has a radius of 5 pixels and covers the pixel in row 1 and column 2 of the
    slice that starts at row 10 and column 10, but not the one in row 9. *)
Definition draw_exactly (discs : list (f64 * f64 * f64)) (n : Z) (sym : bool) : result (img Z) :=
  Ok (mkimg n n (fun r c =>
    if existsb (fun s => let '(x, y, q) := s in
          if Rlt_dec (dist_euc (f64_val x) (f64_val y) (IZR c) (IZR r)) (f64_val q) then true else false) discs
    then 1%Z else 0%Z)).

Example C69_draws_discs_double : draws_discs 0 draw_exactly.
Proof.
  intros discs n O. eexists. split; [reflexivity|]. split; [reflexivity|]. split; [reflexivity|].
  intros r c _. cbn [px]. rewrite Forall_forall in O. destruct (existsb _ discs) eqn:E; split.
  - intros _. apply existsb_exists in E. destruct E as ([[x y] q] & I & H).
    destruct (O _ I) as (vx & vy & vq & X & Y & Q & _). exists x, y, q, vx, vy, vq.
    split; [exact I|]. split; [exact X|]. split; [exact Y|]. split; [exact Q|].
    destruct X as (_ & _ & <-), Y as (_ & _ & <-), Q as (_ & _ & <-).
    destruct (Rlt_dec _ _) in H; [lra|discriminate].
  - intros _. lia.
  - congruence.
  - intros (x & y & q & vx & vy & vq & I & (_ & _ & <-) & (_ & _ & <-) & (_ & _ & <-) & H). exfalso.
    assert (X : existsb (fun s => let '(x, y, q) := s in
          if Rlt_dec (dist_euc (f64_val x) (f64_val y) (IZR c) (IZR r)) (f64_val q) then true else false) discs = true).
    { apply existsb_exists. exists (x, y, q). split; [exact I|]. destruct (Rlt_dec _ _) as [|G]; [reflexivity|].
      exfalso. apply G. lra. }
    congruence.
Qed.

Definition two_stars : list (star (F := f64)) :=
  [mkstar (fofZ 50) (fofZ 50) (fofZ 19); mkstar (fofZ 14) (fofZ 13) (fofZ 15)].
Definition flat_sky (ra dec : f64) : result (f64 * f64) := Ok (ra, dec).
Definition twenty_minus : list f64 := [fofZ (-1); fofZ 20].
Definition same (x : f64) : f64 := x.

Example C69_example_double :
  (forall s, In s two_stars -> fleb (st_mag s) (fofZ 18) = true ->
     ordinary_star flat_sky (fun mag => same (same (polyval twenty_minus mag))) s) /\
  star_at flat_sky (fun mag => same (same (polyval twenty_minus mag))) (fofZ 18) 1 (10 + 1) (10 + 2)
    (mkstar (fofZ 14) (fofZ 13) (fofZ 15)) 5 (dist_euc 13 12 12 11) /\
  exists stars m,
    read_gaia_stars flat_sky 1 two_stars = Ok stars /\
    build_gaia_star_mask same same draw_exactly stars (fofZ 18) twenty_minus (fofZ 10) (fofZ 10) 20 false = Ok m /\
    px m 1 2 = true /\ px m 9 2 = false.
Proof.
  assert (OZ : forall k, (Z.abs k <= 2 ^ 53)%Z -> f64_is (fofZ k : f64) (IZR k)) by (intros; now apply f64_ofZ_is).
  assert (R5 : same (same (polyval twenty_minus (fofZ 15))) = fofZ 5) by (vm_compute; reflexivity).
  assert (HS : forall s, In s two_stars -> fleb (st_mag s) (fofZ 18) = true ->
     ordinary_star flat_sky (fun mag => same (same (polyval twenty_minus mag))) s).
  { intros s [<-|[<-|[]]] M; [vm_compute in M; discriminate M|]. split.
    - exists 5. cbn [st_mag]. rewrite R5. apply (OZ 5%Z). lia.
    - intros x y E. injection E as <- <-. exists 14, 13. split; [apply (OZ 14%Z); lia|]. split; [apply (OZ 13%Z); lia|].
      rewrite !Rabs_pos_eq by lra. change (IZR (2 ^ 20)) with 1048576. lra. }
  split; [exact HS|].
  split.
  { split; [vm_compute; reflexivity|]. cbn [st_mag]. rewrite R5. split; [apply (OZ 5%Z); lia|].
    exists (fofZ 14), (fofZ 13), 14, 13. split; [reflexivity|]. split; [apply (OZ 14%Z); lia|]. split; [apply (OZ 13%Z); lia|].
    unfold dist_euc. f_equal. unfold Rsqr. lra. }
  destruct (read_gaia_stars flat_sky 1 two_stars) as [stars|] eqn:E; [|discriminate E].
  destruct (C69_mask_is_the_stars_double 0 draw_exactly flat_sky same same 1 two_stars (fofZ 18) twenty_minus
    (fofZ 10) (fofZ 10) 10 10 20 stars C69_draws_discs_double E HS ltac:(lia) (OZ 10%Z ltac:(lia)) (OZ 10%Z ltac:(lia)))
    as (m & B & N & N' & H); try (rewrite Rabs_pos_eq by lra; change (IZR (2 ^ 20)) with 1048576; lra).
  exists stars, m. split; [reflexivity|]. split; [exact B|].
  assert (B29 : bpow radix2 (-29) <= / 8) by (apply (bpow_le radix2 (-29) (-3)); lia).
  assert (B29' : 0 < bpow radix2 (-29)) by apply bpow_gt_0.
  split.
  - destruct (H 1%Z 2%Z ltac:(split; lia)) as [_ Q].
    apply (Q (mkstar (fofZ 14) (fofZ 13) (fofZ 15)) 5 (dist_euc 13 12 12 11)).
    + right. left. reflexivity.
    + split; [vm_compute; reflexivity|]. cbn [st_mag]. rewrite R5. split; [apply (OZ 5%Z); lia|].
      exists (fofZ 14), (fofZ 13), 14, 13. split; [reflexivity|]. split; [apply (OZ 14%Z); lia|]. split; [apply (OZ 13%Z); lia|].
      unfold dist_euc. f_equal. unfold Rsqr. lra.
    + assert (dist_euc 13 12 12 11 <= 2).
      { unfold dist_euc, Rsqr. rewrite <- (sqrt_square 2) by lra. apply sqrt_le_1_alt. lra. }
      lra.
  - destruct (H 9%Z 2%Z ltac:(split; lia)) as [P _]. destruct (px m 9 2); [|reflexivity].
    destruct (P eq_refl) as (s & q & d & I & (M & Q & x & y & vx & vy & X & V & W & ->) & D).
    destruct I as [<-|[<-|[]]]; [vm_compute in M; discriminate M|].
    cbn [st_mag] in Q. rewrite R5 in Q. apply (f64_is_unique _ _ _ (OZ 5%Z ltac:(lia))) in Q. subst q.
    injection X as <- <-.
    apply (f64_is_unique _ _ _ (OZ 14%Z ltac:(lia))) in V. apply (f64_is_unique _ _ _ (OZ 13%Z ltac:(lia))) in W.
    subst vx vy.
    assert (7 <= dist_euc (14 - 1) (13 - 1) (10 + 2) (10 + 9)).
    { unfold dist_euc, Rsqr. rewrite <- (sqrt_square 7) by lra. apply sqrt_le_1_alt. lra. }
    lra.
Qed.

Print Assumptions C69_mask_is_the_stars_double.
Print Assumptions C69_overlapping_slices_agree_double.
Print Assumptions C69_radius_polynomial_double.
