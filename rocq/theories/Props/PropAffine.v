(** C17, C18: the affine WCS and the rough sky bounds. *)
From Coq Require Import ZArith List Bool Reals Lia Lra.
From Flocq Require Import Core.
From Verif Require Import Lib.Base Lib.Floats Model.Affine Model.SkyBounds Spec.AffineSpec
  Spec.FloatSpec Proofs.AffineProofs Proofs.SkyBoundsProofs.
Import ListNotations.
Open Scope R_scope.

(** C17: only singular matrices are rejected, with ValueError. *)
Theorem C17_rejects_exactly_singular :
  forall a b c d px py : R,
  (a * d - b * c = 0 -> affine_wcs a b c d px py = Raise ValueError) /\
  (a * d - b * c <> 0 -> exists w, affine_wcs a b c d px py = Ok w).
Proof.
  intros. rewrite affine_wcs_cases. destruct (Req_EM_T _ _); split; intros; try contradiction; eauto.
Qed.

(** C17: image2sky is the affine map described by the parameters. *)
Theorem C17_maps_affinely :
  forall (a b c d px py : R) w, affine_wcs a b c d px py = Ok w ->
  forall x y, image2sky w x y = (a * (x - px) + b * (y - py), c * (x - px) + d * (y - py)).
Proof. intros a b c d px py w H x y. exact (affine_image2sky a b c d px py w x y H). Qed.

(** C17: the two directions are inverse to each other. *)
Theorem C17_round_trips :
  forall (a b c d px py : R) w, affine_wcs a b c d px py = Ok w ->
  (forall x y, let '(u, v) := image2sky w x y in sky2image w u v = (x, y)) /\
  (forall u v, let '(x, y) := sky2image w u v in image2sky w x y = (u, v)).
Proof.
  intros a b c d px py w H. split; intros p q.
  - pose proof (affine_round_image a b c d px py w p q H). destruct (image2sky w p q). assumption.
  - pose proof (affine_round_sky a b c d px py w p q H). destruct (sky2image w p q). assumption.
Qed.

Theorem C17_origin :
  forall (a b c d px py : R) w, affine_wcs a b c d px py = Ok w ->
  image2sky w px py = (0, 0) /\ sky2image w 0 0 = (px, py).
Proof.
  intros a b c d px py w H.
  assert (E : image2sky w px py = (0, 0)).
  { rewrite (affine_image2sky _ _ _ _ _ _ _ _ _ H). unfold affine_u. f_equal; ring. }
  split; [exact E|]. pose proof (affine_round_image a b c d px py w px py H) as K.
  rewrite E in K. exact K.
Qed.

(** C17: get_jacobian returns the partial derivatives (d/dx, d/dy) of the two
    components of image2sky. *)
Theorem C17_jacobian_is_derivative :
  forall (a b c d px py : R) w, affine_wcs a b c d px py = Ok w ->
  forall x y, let '(ux, uy, vx, vy) := affine_jacobian w x y in
  partials (fun s t => fst (image2sky w s t)) x y ux uy /\
  partials (fun s t => snd (image2sky w s t)) x y vx vy.
Proof.
  intros a b c d px py w H x y. revert H. rewrite affine_wcs_cases.
  destruct (Req_EM_T _ _); intros H; inversion H; subst. cbn.
  split; apply affine_partials.
Qed.

(** C17 in double arithmetic: a matrix is rejected exactly when the two
    products round to the same double. Singular matrices are always rejected;
    some invertible ones are as well. *)
Theorem C17_double_rejection :
  forall (a b c d px py : f64) (va vb vc vd : R),
  f64_is a va -> f64_is b vb -> f64_is c vc -> f64_is d vd ->
  Rabs (va * vd) <= bpow radix2 58 -> Rabs (vb * vc) <= bpow radix2 58 ->
  (affine_wcs a b c d px py = Raise ValueError <-> rnd64 (va * vd) = rnd64 (vb * vc)).
Proof. exact affine_double. Qed.

(** (2^52+1)/2^52 * (2^52+1)/2^52 is not (2^52+2)/2^52 * 1, but rounds to it. *)
Example C17_double_rejects_an_invertible_matrix :
  let eps := fdiv (f64_ofZ (2 ^ 52 + 1)) (f64_ofZ (2 ^ 52)) in
  let eps2 := fdiv (f64_ofZ (2 ^ 52 + 2)) (f64_ofZ (2 ^ 52)) in
  affine_wcs eps eps2 (f64_ofZ 1) eps (f64_ofZ 0) (f64_ofZ 0) = Raise ValueError /\
  ((2 ^ 52 + 1) * (2 ^ 52 + 1) <> (2 ^ 52 + 2) * 2 ^ 52)%Z.
Proof. split; [vm_compute; reflexivity|lia]. Qed.

Example C17_example : exists w : affine R, affine_wcs 1 2 3 4 5 6 = Ok w.
Proof. apply C17_rejects_exactly_singular. lra. Qed.

(** C18: for an affine WCS the bounds are the exact bounding box of the pixel
    centres (zero-indexed positions 0..ncol-1, 0..nrow-1), relative to the sky
    position of the centre, padded by the buffer. *)
Theorem C18_bounds_are_padded_bounding_box :
  forall (a b c d px py : R) w r2uv cosdeg (nrow ncol n_grid : Z) off buff,
  affine_wcs a b c d px py = Ok w ->
  (1 <= nrow)%Z -> (1 <= ncol)%Z -> (1 <= n_grid)%Z ->
  exists bb ra dec,
  get_rough_sky_bounds (image2sky w) r2uv cosdeg nrow ncol off buff n_grid
    (affine_is_celestial w) = Ok (bb, ra, dec) /\
  (ra, dec) = image2sky w ((IZR ncol - 1) / 2 + off) ((IZR nrow - 1) / 2 + off) /\
  range_on (fun x y => fst (image2sky w (x + off) (y + off)) - ra)
    0 (IZR ncol - 1) 0 (IZR nrow - 1) (umin bb + buff) (umax bb - buff) /\
  range_on (fun x y => snd (image2sky w (x + off) (y + off)) - dec)
    0 (IZR ncol - 1) 0 (IZR nrow - 1) (vmin bb + buff) (vmax bb - buff).
Proof.
  intros a b c d px py w r2uv cosdeg nrow ncol n off buff Hw H1 H2 H3.
  rewrite <- !minus_IZR.
  apply (bounds_affine (image2sky w) r2uv cosdeg a b (- a * px - b * py) c d (- c * px - d * py));
    try assumption.
  intros x y. rewrite (affine_image2sky _ _ _ _ _ _ _ _ _ Hw). unfold affine_u. f_equal; ring.
Qed.

(** C18: hence no position on the image is rejected: pixel centres with any
    non-negative buffer, and positions up to [m] pixels outside of the pixel
    centres when the buffer is at least that wide on the sky ([m = 1/2] is the
    outer edge of the border pixels). *)
Theorem C18_positions_on_the_image_are_contained :
  forall (a b c d px py : R) w r2uv cosdeg (nrow ncol n_grid : Z) off buff m bb ra dec,
  affine_wcs a b c d px py = Ok w ->
  (1 <= nrow)%Z -> (1 <= ncol)%Z -> (1 <= n_grid)%Z -> 0 <= m ->
  m * (Rabs a + Rabs b) <= buff -> m * (Rabs c + Rabs d) <= buff ->
  get_rough_sky_bounds (image2sky w) r2uv cosdeg nrow ncol off buff n_grid
    (affine_is_celestial w) = Ok (bb, ra, dec) ->
  forall x y, - m <= x <= IZR ncol - 1 + m -> - m <= y <= IZR nrow - 1 + m ->
  let '(r, de) := image2sky w (x + off) (y + off) in
  ccd_contains_radec r2uv bb ra dec (affine_is_celestial w) r de = true.
Proof.
  intros a b c d px py w r2uv cosdeg nrow ncol n off buff m bb ra dec Hw H1 H2 H3 Hm B1 B2 Hg x y Hx Hy.
  destruct (C18_bounds_are_padded_bounding_box a b c d px py w r2uv cosdeg nrow ncol n off buff Hw H1 H2 H3)
    as (bb' & ra' & dec' & Hg' & _ & (U & _) & (V & _)).
  rewrite Hg in Hg'. inversion Hg'; subst bb' ra' dec'. clear Hg'.
  assert (N : 1 <= IZR ncol) by (apply (IZR_le 1); assumption).
  assert (M : 1 <= IZR nrow) by (apply (IZR_le 1); assumption).
  (* the nearest position within the pixel centres *)
  assert (Hclip : forall t h, 0 <= h -> - m <= t <= h + m ->
            exists s, 0 <= s <= h /\ Rabs (t - s) <= m).
  { intros t h Hh Ht. destruct (Rlt_or_le t 0) as [K|K].
    - exists 0. split; [lra|]. rewrite Rabs_left; lra.
    - destruct (Rlt_or_le h t) as [L|L].
      + exists h. split; [lra|]. rewrite Rabs_pos_eq; lra.
      + exists t. split; [lra|]. replace (t - t) with 0 by ring. rewrite Rabs_R0. lra. }
  destruct (Hclip x (IZR ncol - 1)) as (sx & Sx & Dx); [lra|lra|].
  destruct (Hclip y (IZR nrow - 1)) as (sy & Sy & Dy); [lra|lra|].
  specialize (U sx sy Sx Sy). specialize (V sx sy Sx Sy). revert U V.
  rewrite !(affine_image2sky _ _ _ _ _ _ _ _ _ Hw). unfold ccd_contains_radec, affine_u. cbn [affine_is_celestial fst snd].
  intros U V. apply contains_R. cbn.
  assert (Hlin : forall p q, m * (Rabs p + Rabs q) <= buff ->
            - buff <= p * (x - sx) + q * (y - sy) <= buff).
  { intros p q Hpq.
    assert (Rabs (p * (x - sx) + q * (y - sy)) <= buff).
    { eapply Rle_trans; [apply Rabs_triang|]. rewrite !Rabs_mult.
      assert (Rabs p * Rabs (x - sx) <= Rabs p * m) by (apply Rmult_le_compat_l; [apply Rabs_pos|assumption]).
      assert (Rabs q * Rabs (y - sy) <= Rabs q * m) by (apply Rmult_le_compat_l; [apply Rabs_pos|assumption]).
      lra. }
    apply Rabs_le_inv. assumption. }
  pose proof (Hlin a b B1). pose proof (Hlin c d B2). nra.
Qed.

(** C18, any WCS, celestial or not: the four corner pixels are inside. *)
Theorem C18_corners_are_contained :
  forall wcs r2uv cosdeg (nrow ncol n_grid : Z) off buff celestial b ra dec,
  (1 <= nrow)%Z -> (1 <= ncol)%Z -> (1 <= n_grid)%Z -> 0 <= buff ->
  get_rough_sky_bounds wcs r2uv cosdeg nrow ncol off buff n_grid celestial = Ok (b, ra, dec) ->
  (celestial = true -> forall x y, 0 <= x <= IZR (ncol - 1) -> 0 <= y <= IZR (nrow - 1) ->
     let '(r, d) := wcs (x + off) (y + off) in 0 < cosdeg (snd (r2uv r d ra dec) / 3600)) ->
  forall x y, (x = 0 \/ x = IZR (ncol - 1)) -> (y = 0 \/ y = IZR (nrow - 1)) ->
  let '(r, d) := wcs (x + off) (y + off) in
  ccd_contains_radec r2uv b ra dec celestial r d = true.
Proof. intros wcs r2uv cosdeg nrow ncol n off buff. apply bounds_grid. Qed.

(** With no buffer, the outer edge of a border pixel is outside: for the
    identity WCS on a 4 x 2 image the position x = -1/2 is rejected. *)
Theorem C18_pixel_edges_need_the_buffer :
  exists (w : affine R) bb ra dec,
  affine_wcs 1 0 0 1 0 0 = Ok w /\
  get_rough_sky_bounds (image2sky w) (fun _ _ _ _ => (0, 0)) (fun _ => 1) 4 2 0 0 4 false
    = Ok (bb, ra, dec) /\
  ccd_contains_radec (fun _ _ _ _ => (0, 0)) bb ra dec false (- (1 / 2)) 0 = false.
Proof.
  destruct (proj2 (C17_rejects_exactly_singular 1 0 0 1 0 0) ltac:(lra)) as (w & Hw).
  destruct (C18_bounds_are_padded_bounding_box 1 0 0 1 0 0 w (fun _ _ _ _ => (0, 0)) (fun _ => 1)
              4 2 4 0 0 Hw ltac:(lia) ltac:(lia) ltac:(lia))
    as (bb & ra & dec & Hg & _ & (_ & (x & y & Hx & Hy & E) & _) & _).
  exists w, bb, ra, dec. split; [exact Hw|]. split; [exact Hg|].
  rewrite (affine_image2sky _ _ _ _ _ _ _ _ _ Hw) in E. unfold affine_u in E. cbn [fst] in E.
  apply not_true_is_false. unfold ccd_contains_radec. intros K. apply contains_R in K.
  cbn in K. lra.
Qed.

(** Concrete: the rotation by 90 degrees of a 3 x 5 image. *)
Example C18_example :
  exists w : affine R, affine_wcs 0 1 (-1) 0 1 1 = Ok w /\
  (1 / 2) * (Rabs 0 + Rabs 1) <= 1 /\ (1 / 2) * (Rabs (-1) + Rabs 0) <= 1.
Proof.
  destruct (proj2 (C17_rejects_exactly_singular 0 1 (-1) 0 1 1) ltac:(lra)) as (w & Hw).
  exists w. split; [exact Hw|]. rewrite (Rabs_left (-1)), Rabs_R0, Rabs_R1 by lra. lra.
Qed.

Print Assumptions C17_rejects_exactly_singular.
Print Assumptions C17_maps_affinely.
Print Assumptions C17_round_trips.
Print Assumptions C17_origin.
Print Assumptions C17_jacobian_is_derivative.
Print Assumptions C17_double_rejection.
Print Assumptions C18_bounds_are_padded_bounding_box.
Print Assumptions C18_positions_on_the_image_are_contained.
Print Assumptions C18_corners_are_contained.
Print Assumptions C18_pixel_edges_need_the_buffer.
