(** C73, C74: coordinates of a single-epoch image, and its construction. *)
From Coq Require Import ZArith List Bool String Lia Reals Lra.
From Coq Require Import List.
From Verif Require Import Lib.Base Lib.Floats Model.Affine Model.SkyBounds Model.WcsGrid Model.SeWcs
  Spec.AffineSpec Spec.SeWcsSpec Proofs.SliceInputsProofs Proofs.AffineProofs Proofs.SkyBoundsProofs
  Proofs.SeWcsProofs.
From Verif Require Props.PropAffine Props.PropWcsGrid.
From Verif Require Import Model.Wrap Spec.WrapSpec Props.PropWrap.
Import ListNotations.
Open Scope string_scope.
Open Scope list_scope.

(** C73, in any arithmetic: positions are zero-indexed. The WCS is asked at the
    position plus the offset, with the colour of the image, and the position it
    gives back has the offset taken off. *)
Theorem C73_position_to_sky :
  forall (F : Type) (FO : FloatOps F) (w : wcs F) (offset color x y : F),
  se_image2sky (mksw w offset color) (Scalar x) (Scalar y)
  = match own_sky w color (fadd x offset) (fadd y offset) with
    | Ok (ra, dec) => Ok (Scalar ra, Scalar dec)
    | Raise e => Raise e
    end.
Proof.
  intros F FO w offset color x y. unfold se_image2sky.
  rewrite method_scalar by apply image2sky1_respects. rewrite image2sky1_own. reflexivity.
Qed.

Theorem C73_sky_to_position :
  forall (F : Type) (FO : FloatOps F) (w : wcs F) (offset color ra dec : F),
  se_sky2image (mksw w offset color) (Scalar ra) (Scalar dec)
  = match own_image w color ra dec with
    | Ok (x, y) => Ok (Scalar (fsub x offset), Scalar (fsub y offset))
    | Raise e => Raise e
    end.
Proof.
  intros F FO w offset color ra dec. unfold se_sky2image.
  rewrite method_scalar by apply sky2image1_respects. rewrite sky2image1_own.
  cbn [sw_wcs sw_offset sw_color]. destruct (own_image w color ra dec) as [[x y]|]; reflexivity.
Qed.

(** C73: one-dimensional arrays are answered element by element. *)
Theorem C73_arrays_elementwise :
  forall (F : Type) (FO : FloatOps F) (s : @slice_wcs F) (xs ys a b : list F),
  (se_image2sky s (Vector xs) (Vector ys) = Ok (Vector a, Vector b) <->
   unusable (sw_wcs s) = None /\ answers_elements (se_image2sky s) xs ys a b) /\
  (se_sky2image s (Vector xs) (Vector ys) = Ok (Vector a, Vector b) <->
   unusable (sw_wcs s) = None /\ answers_elements (se_sky2image s) xs ys a b).
Proof.
  intros F FO s xs ys a b. split.
  - apply (method_vector s (image2sky1 s)). apply image2sky1_respects.
  - apply (method_vector s (sky2image1 s)). apply sky2image1_respects.
Qed.

(** C73: scalars are answered with scalars and arrays with arrays. *)
Theorem C73_answer_shape :
  forall (F : Type) (FO : FloatOps F) (s : @slice_wcs F) (x y p q : coords F),
  se_image2sky s x y = Ok (p, q) \/ se_sky2image s x y = Ok (p, q) ->
  (exists x0 y0 p0 q0, x = Scalar x0 /\ y = Scalar y0 /\ p = Scalar p0 /\ q = Scalar q0) \/
  (exists xs ys ps qs, x = Vector xs /\ y = Vector ys /\ p = Vector ps /\ q = Vector qs).
Proof. intros F FO s x y p q [H|H]; exact (method_shape _ _ _ _ _ _ H). Qed.

(** C73: arguments of two or more dimensions, or of different dimensions, are an
    AssertionError. *)
Theorem C73_bad_arguments :
  forall (F : Type) (FO : FloatOps F) (s : @slice_wcs F) (x y : coords F),
  (1 < ndim x)%Z \/ (1 < ndim y)%Z \/ ndim x <> ndim y ->
  se_image2sky s x y = Raise AssertionError /\ se_sky2image s x y = Raise AssertionError.
Proof. intros F FO s x y H. split; apply method_bad_args; exact H. Qed.

(** C73: a WCS that is not understood is a ValueError, a flat WCS of galsim an
    AssertionError, whatever the positions. *)
Theorem C73_bad_wcs :
  forall (F : Type) (FO : FloatOps F) (s : @slice_wcs F) (x y : coords F) (e : pyexc),
  unusable (sw_wcs s) = Some e -> (ndim x <= 1)%Z -> ndim x = ndim y ->
  se_image2sky s x y = Raise e /\ se_sky2image s x y = Raise e.
Proof. intros F FO s x y e H Hx Hxy. split; apply method_unusable; assumption. Qed.

(** C73 in real arithmetic: if the WCS undoes itself so does the image, for
    scalars and arrays and whatever the offset. *)
Theorem C73_round_trip_from_image :
  forall (w : wcs R) (offset color : R),
  undoes (own_image w color) (own_sky w color) ->
  forall x y ra dec, se_image2sky (mksw w offset color) x y = Ok (ra, dec) ->
  se_sky2image (mksw w offset color) ra dec = Ok (x, y).
Proof.
  intros w offset color H x y ra dec E.
  apply (method_undo (mksw w offset color) (image2sky1 (mksw w offset color)));
    [apply image2sky1_respects|apply sky2image1_respects| |exact E].
  apply undo_image. exact H.
Qed.

Theorem C73_round_trip_from_sky :
  forall (w : wcs R) (offset color : R),
  undoes (own_sky w color) (own_image w color) ->
  forall ra dec x y, se_sky2image (mksw w offset color) ra dec = Ok (x, y) ->
  se_image2sky (mksw w offset color) x y = Ok (ra, dec).
Proof.
  intros w offset color H ra dec x y E.
  apply (method_undo (mksw w offset color) (sky2image1 (mksw w offset color)));
    [apply sky2image1_respects|apply image2sky1_respects| |exact E].
  apply undo_sky. exact H.
Qed.

(** C73: every AffineWCS undoes itself. *)
Theorem C73_affine_undoes :
  forall (a b c d px py : R) w color, affine_wcs a b c d px py = Ok w ->
  undoes (own_image (AffineW w) color) (own_sky (AffineW w) color) /\
  undoes (own_sky (AffineW w) color) (own_image (AffineW w) color).
Proof.
  intros a b c d px py w color H. destruct (PropAffine.C17_round_trips a b c d px py w H) as [H1 H2].
  split; intros x y p E; cbn [own_sky own_image] in *; apply Ok_inj in E; subst p.
  - specialize (H1 x y). destruct (image2sky w x y). cbn [fst snd]. rewrite H1. reflexivity.
  - specialize (H2 x y). destruct (sky2image w x y). cbn [fst snd]. rewrite H2. reflexivity.
Qed.

(** C73: the Jacobian is the one of the WCS at the position plus the offset. It is
    for one position at a time. *)
Theorem C73_jacobian :
  forall (F : Type) (FO : FloatOps F) (w : wcs F) (offset color x y : F),
  se_jacobian (mksw w offset color) (Scalar x) (Scalar y)
  = match w with
    | Esutil _ _ jac => jac (fadd x offset) (fadd y offset)
    | AffineW a => Ok (dudx a, dudy a, dvdx a, dvdy a)
    | Galsim _ _ _ local => local color (fadd x offset) (fadd y offset)
    | OtherWcs => Raise ValueError
    end.
Proof. intros F FO w offset color x y. unfold se_jacobian. destruct w; reflexivity. Qed.

Theorem C73_jacobian_one_position :
  forall (F : Type) (FO : FloatOps F) (s : @slice_wcs F) (x y : coords F),
  (0 < ndim x)%Z \/ (0 < ndim y)%Z -> se_jacobian s x y = Raise AssertionError.
Proof. intros F FO s [x|x|] [y|y|] H; cbn in *; try reflexivity; lia. Qed.

(** C73: for an AffineWCS it holds the derivatives of [image2sky] of the image. *)
Theorem C73_affine_jacobian_is_derivative :
  forall (a b c d px py : R) w offset color, affine_wcs a b c d px py = Ok w ->
  forall x y, exists ux uy vx vy (fu fv : R -> R -> R),
  se_jacobian (mksw (AffineW w) offset color) (Scalar x) (Scalar y) = Ok (ux, uy, vx, vy) /\
  (forall s t, se_image2sky (mksw (AffineW w) offset color) (Scalar s) (Scalar t)
               = Ok (Scalar (fu s t), Scalar (fv s t))) /\
  partials fu x y ux uy /\ partials fv x y vx vy.
Proof.
  intros a b c d px py w offset color H x y.
  assert (Hw : forall s t, image2sky w (s + offset)%R (t + offset)%R =
             (affine_u a b (px - offset) (py - offset) s t, affine_u c d (px - offset) (py - offset) s t)).
  { intros s t. rewrite (affine_image2sky _ _ _ _ _ _ _ _ _ H). unfold affine_u. f_equal; ring. }
  assert (Hj : dudx w = a /\ dudy w = b /\ dvdx w = c /\ dvdy w = d).
  { revert H. rewrite affine_wcs_cases. destruct (Req_EM_T _ _); intros H; inversion H; subst. repeat split. }
  destruct Hj as (J1 & J2 & J3 & J4).
  exists a, b, c, d, (affine_u a b (px - offset) (py - offset)), (affine_u c d (px - offset) (py - offset)).
  split; [rewrite C73_jacobian, J1, J2, J3, J4; reflexivity|].
  split; [|split; apply affine_partials].
  intros s t. rewrite C73_position_to_sky. cbn [own_sky]. cbn [fadd ROps]. rewrite Hw. reflexivity.
Qed.

(** C73: the pixel area of an AffineWCS is |det| everywhere. *)
Theorem C73_affine_pixel_area :
  forall (a b c d px py : R) w offset color (cos : R -> R) d2r fuel,
  affine_wcs a b c d px py = Ok w ->
  forall x y, se_pixel_area (mksw (AffineW w) offset color) cos d2r fuel x y
              = Ok (Some (Rabs (a * d - c * b))).
Proof.
  intros a b c d px py w offset color cs d2r fuel H x y. unfold se_pixel_area.
  cbn [image2sky1 sw_wcs sw_offset bind is_celestial]. f_equal.
  change (known_sky (mksw (AffineW w) offset color))
    with (fun s t : R => (fst (image2sky w (s + offset) (t + offset)), snd (image2sky w (s + offset) (t + offset))))%R.
  unfold fone. cbn [fofZ ROps].
  rewrite (PropWcsGrid.C57_flat_area (fun s t => fst (image2sky w (s + offset) (t + offset))%R)
             (fun s t => snd (image2sky w (s + offset) (t + offset))%R)) by lra.
  f_equal. f_equal. rewrite !(affine_image2sky _ _ _ _ _ _ _ _ _ H). unfold affine_u. cbn [fst snd]. field.
Qed.

(** C73: the area of a pixel comes from differences over two pixels, in either direction
    around the position; on the sky in square arc seconds, with differences of right ascension
    taken the short way round. An area is given only if all five positions are known. *)
Theorem C73_pixel_area_is :
  forall (s : slice_wcs (F := R)) (cos : R -> R) d2r fuel (x y a : R),
  se_pixel_area s cos d2r fuel x y = Ok (Some a) ->
  exists r0 d0 r1 d1 r2 d2 r3 d3 r4 d4,
    image2sky1 s x y = Ok (r0, d0) /\
    image2sky1 s (x + 1)%R y = Ok (r1, d1) /\ image2sky1 s (x - 1)%R y = Ok (r2, d2) /\
    image2sky1 s x (y + 1)%R = Ok (r3, d3) /\ image2sky1 s x (y - 1)%R = Ok (r4, d4) /\
    if is_celestial (sw_wcs s) then
      exists dx dy, wrapped (r1 - r2) dx /\ wrapped (r3 - r4) dy /\
        a = Rabs (3600 * 3600 * cos (d0 * d2r) * (dx / 2 * ((d3 - d4) / 2) - (d1 - d2) / 2 * (dy / 2)))%R
    else a = Rabs ((r1 - r2) / 2 * ((d3 - d4) / 2) - (d1 - d2) / 2 * ((r3 - r4) / 2))%R.
Proof.
  intros s cs d2r fuel x y a. unfold se_pixel_area. intros H.
  apply bind_ok in H as ([r0 d0] & E0 & H). apply bind_ok in H as ([r1 d1] & E1 & H).
  apply bind_ok in H as ([r2 d2] & E2 & H). apply bind_ok in H as ([r3 d3] & E3 & H).
  apply bind_ok in H as ([r4 d4] & E4 & H). apply Ok_inj in H.
  cbn [fadd fsub ROps] in *. change (@fone R ROps) with 1%R in *.
  unfold compute_wcs_area, known_sky in H. cbn [fadd fsub ROps] in H. rewrite E0, E1, E2, E3, E4 in H.
  exists r0, d0, r1, d1, r2, d2, r3, d3, r4, d4. repeat (split; [assumption|]).
  destruct (is_celestial (sw_wcs s)).
  - destruct (wrap_ra_diff _ (r1 - r2)%R) as [dx|] eqn:Ex; [|discriminate].
    destruct (wrap_ra_diff _ (r3 - r4)%R) as [dy|] eqn:Ey; [|discriminate].
    exists dx, dy. split; [exact (proj2 (C15_wrapped_exact_arithmetic _) _ _ Ex)|].
    split; [exact (proj2 (C15_wrapped_exact_arithmetic _) _ _ Ey)|].
    injection H as <-. cbn [fabs fsub fmul fdiv fofZ ROps]. rewrite <- Rabs_Ropp. f_equal.
    unfold fhalf, fdec. cbn [fdiv fofZ ROps]. field.
  - injection H as <-. cbn [fabs fsub fmul fdiv fofZ ROps]. f_equal.
    unfold fhalf, fdec. cbn [fdiv fofZ ROps]. field.
Qed.

(** ** C74: construction *)

(** C74: what a constructed image holds: the WCS, PSF model and shape come from
    the place that was asked for. *)
Theorem C74_constructed :
  forall (F P : Type) (FO : FloatOps F) load_image_wcs load_head_wcs load_piff load_psfex get_image_shape
         radec_to_uv cosdeg (si : @source F P) psf wc offset color o,
  init load_image_wcs load_head_wcs load_piff load_psfex get_image_shape radec_to_uv cosdeg
    si psf wc offset color = Ok o ->
  wcs_from load_image_wcs load_head_wcs load_piff si wc (sw_wcs (so_wcs o)) /\
  psf_from load_piff load_psfex si psf (so_psf o) /\
  shape_from get_image_shape si (so_shape o) /\
  sw_offset (so_wcs o) = offset /\ sw_color (so_wcs o) = color /\
  unusable (sw_wcs (so_wcs o)) = None /\
  so_celestial o = is_celestial (sw_wcs (so_wcs o)) /\
  so_ccd_bnds o = (0, fst (so_shape o) - 1, 0, snd (so_shape o) - 1)%Z.
Proof.
  intros F P FO l1 l2 l3 l4 l5 r2uv cs si psf wc offset color o H.
  apply init_inv in H as (A & B & C & D & E & G & I & J & _). repeat (split; [assumption|]). assumption.
Qed.

(** C74: in real arithmetic construction succeeds whenever the WCS, the PSF model
    and a non-empty shape are there and the WCS has an answer at every position on
    the image. *)
Theorem C74_construction_succeeds :
  forall (P : Type) load_image_wcs load_head_wcs load_piff load_psfex get_image_shape
         radec_to_uv cosdeg (si : @source R P) psf wc (offset color : R) w m nrow ncol,
  wcs_from load_image_wcs load_head_wcs load_piff si wc w ->
  psf_from load_piff load_psfex si psf m ->
  shape_from get_image_shape si (nrow, ncol) -> (1 <= nrow)%Z -> (1 <= ncol)%Z ->
  (forall x y, near_image nrow ncol 0 x y -> exists p, own_sky w color (x + offset)%R (y + offset)%R = Ok p) ->
  exists o, init load_image_wcs load_head_wcs load_piff load_psfex get_image_shape radec_to_uv cosdeg
              si psf wc offset color = Ok o /\
  so_wcs o = mksw w offset color /\ so_psf o = m /\ so_shape o = (nrow, ncol).
Proof.
  intros P l1 l2 l3 l4 l5 r2uv cs si psf wc offset color w m nrow ncol Hw Hm Hs H1 H2 Ht.
  destruct (bounds_shape (known_sky (mksw w offset color)) r2uv cs nrow ncol fzero (fofZ 16) 4 (is_celestial w)
              H1 H2 ltac:(lia)) as (nr & nc & b & ra & de & ub & u0 & u1 & v0 & v1 & _ & _ & _ & Hg & _).
  assert (Hc : sky_calls (mksw w offset color) nrow ncol 4 = Ok tt).
  { apply sky_calls_ok; [assumption..|]. intros x y Hx Hy. rewrite image2sky1_own. apply Ht.
    unfold near_image. lra. }
  eexists. split; [apply (init_intro l1 l2 l3 l4 l5 r2uv cs si psf wc offset color w m (nrow, ncol) b ra de);
                     assumption|].
  repeat split.
Qed.

(** C74: the PSF 'piff' and the WCS 'pixmappy' come from one and the same load. *)
Theorem C74_piff_and_pixmappy_belong_together :
  forall (F P : Type) (FO : FloatOps F) load_image_wcs load_head_wcs load_piff load_psfex get_image_shape
         radec_to_uv cosdeg (si : @source F P) offset color o,
  init load_image_wcs load_head_wcs load_piff load_psfex get_image_shape radec_to_uv cosdeg
    si (Name "piff") (Name "pixmappy") offset color = Ok o ->
  exists path ccd, s_piff_path si = Some path /\ s_ccdnum si = Some ccd /\
  load_piff path ccd = Ok (so_psf o, sw_wcs (so_wcs o)).
Proof.
  intros F P FO l1 l2 l3 l4 l5 r2uv cs si offset color o H.
  apply init_inv in H as (A & B & _). inversion A; subst. inversion B; subst.
  exists p, k. split; [assumption|]. split; [assumption|]. congruence.
Qed.

(** C74: other names are a RuntimeError. *)
Theorem C74_unknown_wcs_name :
  forall (F P : Type) (FO : FloatOps F) load_image_wcs load_head_wcs load_piff load_psfex get_image_shape
         radec_to_uv cosdeg (si : @source F P) psf n offset color,
  ~ In n wcs_names ->
  init load_image_wcs load_head_wcs load_piff load_psfex get_image_shape radec_to_uv cosdeg
    si psf (Name n) offset color = Raise RuntimeError.
Proof. intros F P FO l1 l2 l3 l4 l5 r2uv cs si psf n offset color H. apply init_bad_wcs_name. exact H. Qed.

Theorem C74_unknown_psf_name :
  forall (F P : Type) (FO : FloatOps F) load_image_wcs load_head_wcs load_piff load_psfex get_image_shape
         radec_to_uv cosdeg (si : @source F P) n wc w offset color,
  wcs_from load_image_wcs load_head_wcs load_piff si wc w -> ~ In n psf_names ->
  init load_image_wcs load_head_wcs load_piff load_psfex get_image_shape radec_to_uv cosdeg
    si (Name n) wc offset color = Raise RuntimeError.
Proof.
  intros F P FO l1 l2 l3 l4 l5 r2uv cs si n wc w offset color Hw H.
  eapply init_bad_psf_name; eassumption.
Qed.

(** C74: a flat WCS of galsim passes for usable in several methods, but no image
    can be made with one. *)
Theorem C74_flat_galsim_refused :
  forall (P : Type) load_image_wcs load_head_wcs load_piff load_psfex get_image_shape
         radec_to_uv cosdeg (si : @source R P) psf m nrow ncol to_radec to_xy local (offset color : R),
  psf_from load_piff load_psfex si psf m ->
  shape_from get_image_shape si (nrow, ncol) -> (1 <= nrow)%Z -> (1 <= ncol)%Z ->
  init load_image_wcs load_head_wcs load_piff load_psfex get_image_shape radec_to_uv cosdeg
    si psf (Object (Galsim false to_radec to_xy local)) offset color = Raise AssertionError.
Proof.
  intros P l1 l2 l3 l4 l5 r2uv cs si psf m nrow ncol t1 t2 t3 offset color Hm Hs H1 H2.
  destruct (grid_size_pos nrow ncol 4 H1 H2 ltac:(lia)) as (nr & nc & Hg & _).
  eapply init_unusable; [constructor|exact Hm|exact Hs|exact Hg|reflexivity].
Qed.

(** C74: with an AffineWCS the constructed image contains the sky positions of
    all its pixels, up to [m] pixels outside as long as these are less than 16
    arcsec on the sky. *)
Theorem C74_own_positions_contained :
  forall (P : Type) load_image_wcs load_head_wcs load_piff load_psfex get_image_shape
         radec_to_uv cosdeg (si : @source R P) psf wc (offset color : R) o a b c d px py w m,
  init load_image_wcs load_head_wcs load_piff load_psfex get_image_shape radec_to_uv cosdeg
    si psf wc offset color = Ok o ->
  affine_wcs a b c d px py = Ok w -> sw_wcs (so_wcs o) = AffineW w ->
  (1 <= fst (so_shape o))%Z -> (1 <= snd (so_shape o))%Z ->
  (0 <= m)%R -> (m * (Rabs a + Rabs b) <= 16)%R -> (m * (Rabs c + Rabs d) <= 16)%R ->
  forall x y ra dec, near_image (fst (so_shape o)) (snd (so_shape o)) m x y ->
  se_image2sky (so_wcs o) (Scalar x) (Scalar y) = Ok (Scalar ra, Scalar dec) ->
  se_contains_radec radec_to_uv o ra dec = true.
Proof.
  intros P l1 l2 l3 l4 l5 r2uv cs si psf wc offset color o a b c d px py w m H Hw Ew H1 H2 Hm B1 B2 x y ra de [Hx Hy] E.
  apply init_inv in H as (_ & _ & _ & Eo & Ec & _ & Cel & _ & _ & Hg).
  assert (Es : so_wcs o = mksw (AffineW w) offset color)
    by (destruct (so_wcs o); cbn in *; congruence).
  rewrite Es in Hg, E, Cel. cbn [sw_wcs is_celestial] in Cel. rewrite Cel in Hg.
  (* the affine map with the offset folded in *)
  assert (Hw' : exists w', affine_wcs a b c d (px - offset)%R (py - offset)%R = Ok w').
  { revert Hw. rewrite !affine_wcs_cases. destruct (Req_EM_T _ _); [discriminate|eauto]. }
  destruct Hw' as (w' & Hw').
  assert (Hmap : forall s t, known_sky (mksw (AffineW w) offset color) s t = image2sky w' s t).
  { intros s t. rewrite known_affine, (affine_image2sky _ _ _ _ _ _ _ _ _ Hw),
      (affine_image2sky _ _ _ _ _ _ _ _ _ Hw'). unfold affine_u. f_equal; ring. }
  assert (Hfun : known_sky (mksw (AffineW w) offset color) = image2sky w').
  { apply FunctionalExtensionality.functional_extensionality. intros s.
    apply FunctionalExtensionality.functional_extensionality. intros t. apply Hmap. }
  rewrite Hfun in Hg.
  pose proof (PropAffine.C18_positions_on_the_image_are_contained a b c d (px - offset)%R (py - offset)%R w' r2uv cs
                (fst (so_shape o)) (snd (so_shape o)) 4 0%R 16%R m _ _ _ Hw' H1 H2 ltac:(lia) Hm B1 B2 Hg x y Hx Hy) as K.
  rewrite C73_position_to_sky in E. cbn [own_sky fadd ROps] in E.
  specialize (Hmap (x + 0)%R (y + 0)%R). rewrite <- Hmap in K. rewrite known_affine in K.
  rewrite !Rplus_0_r in K. destruct (image2sky w (x + offset)%R (y + offset)%R) as [r t].
  apply Ok_inj in E. apply pair_equal_spec in E as [E1 E2]. injection E1 as <-. injection E2 as <-.
  unfold se_contains_radec. rewrite Cel. exact K.
Qed.

(** C74: with any WCS the corner pixels are contained, if no part of a celestial
    image is a right angle or more away from its centre. *)
Theorem C74_corners_contained :
  forall (P : Type) load_image_wcs load_head_wcs load_piff load_psfex get_image_shape
         radec_to_uv cosdeg (si : @source R P) psf wc (offset color : R) o nrow ncol,
  init load_image_wcs load_head_wcs load_piff load_psfex get_image_shape radec_to_uv cosdeg
    si psf wc offset color = Ok o ->
  so_shape o = (nrow, ncol) -> (1 <= nrow)%Z -> (1 <= ncol)%Z ->
  (forall x y, near_image nrow ncol 0 x y -> exists p, own_sky (sw_wcs (so_wcs o)) color (x + offset)%R (y + offset)%R = Ok p) ->
  (so_celestial o = true -> forall x y ra dec, near_image nrow ncol 0 x y ->
     se_image2sky (so_wcs o) (Scalar x) (Scalar y) = Ok (Scalar ra, Scalar dec) ->
     (0 < cosdeg (snd (radec_to_uv ra dec (so_ra_ccd o) (so_dec_ccd o)) / 3600))%R) ->
  forall x y ra dec, x = 0%R \/ x = (IZR ncol - 1)%R -> y = 0%R \/ y = (IZR nrow - 1)%R ->
  se_image2sky (so_wcs o) (Scalar x) (Scalar y) = Ok (Scalar ra, Scalar dec) ->
  se_contains_radec radec_to_uv o ra dec = true.
Proof.
  intros P l1 l2 l3 l4 l5 r2uv cs si psf wc offset color o nrow ncol H Hs H1 H2 Ht Hcos x y ra de Hx Hy E.
  apply init_inv in H as (_ & _ & _ & Eo & Ec & _ & _ & _ & _ & Hg). rewrite Hs in Hg. cbn [fst snd] in Hg.
  assert (Hk : forall s t, near_image nrow ncol 0 s t ->
            exists p, image2sky1 (so_wcs o) s t = Ok p /\ known_sky (so_wcs o) s t = p /\
            se_image2sky (so_wcs o) (Scalar s) (Scalar t) = Ok (Scalar (fst p), Scalar (snd p))).
  { intros s t Hst. destruct (Ht s t Hst) as (p & Hp). exists p.
    assert (E1 : image2sky1 (so_wcs o) s t = Ok p) by (rewrite image2sky1_own, Eo, Ec; exact Hp).
    split; [exact E1|]. split; [apply known_sky_ok; exact E1|].
    unfold se_image2sky. rewrite method_scalar by apply image2sky1_respects. rewrite E1. destruct p; reflexivity. }
  assert (N : (1 <= IZR ncol)%R) by (apply (IZR_le 1); assumption).
  assert (M : (1 <= IZR nrow)%R) by (apply (IZR_le 1); assumption).
  pose proof (bounds_grid (known_sky (so_wcs o)) r2uv cs nrow ncol 0%R 16%R 4 (so_celestial o) _ _ _
                H1 H2 ltac:(lia) ltac:(lra) Hg) as K.
  assert (K1 : so_celestial o = true ->
    forall x y, (0 <= x <= IZR (ncol - 1))%R -> (0 <= y <= IZR (nrow - 1))%R ->
    let '(r, d) := known_sky (so_wcs o) (x + 0)%R (y + 0)%R in
    (0 < cs (snd (r2uv r d (so_ra_ccd o) (so_dec_ccd o)) / 3600))%R).
  { intros Hc s t S1 S2. rewrite minus_IZR in S1, S2. rewrite !Rplus_0_r.
    assert (Hst : near_image nrow ncol 0 s t) by (unfold near_image; lra).
    destruct (Hk s t Hst) as ([r d] & _ & -> & E3). exact (Hcos Hc s t r d Hst E3). }
  specialize (K K1 x y). rewrite !minus_IZR, !Rplus_0_r in K. specialize (K Hx Hy).
  assert (Hst : near_image nrow ncol 0 x y) by (unfold near_image; lra).
  destruct (Hk x y Hst) as ([r d] & _ & Ek & E3). rewrite Ek in K. rewrite E in E3.
  apply Ok_inj in E3. apply pair_equal_spec in E3 as [X Y]. injection X as ->. injection Y as ->. exact K.
Qed.

(** ** Concrete cases *)

(** An image with a one-indexed affine WCS of 2 arcsec pixels, found by name, and a
    PSF found by name: its construction succeeds and the outer corner of its first
    pixel is on it. *)
Definition ex_affine : affine R := mk_affine 2%R 0%R 0%R 2%R 1%R 1%R 4%R.
Definition ex_source : @source R nat :=
  mksrc (Some "im.fits") (Some "sci") None (Some "psf.piff") (Some 7%Z) None (Some ex_affine) None
        (Some (3, 5)%Z).
Definition ex_piff (p : string) (k : Z) : result (nat * wcs R) :=
  if String.eqb p "psf.piff" then Ok (Z.to_nat k, OtherWcs) else Raise IOError.

Example C74_example :
  affine_wcs 2%R 0%R 0%R 2%R 1%R 1%R = Ok ex_affine /\
  exists o, init (fun _ _ => Raise IOError) (fun _ _ _ => Raise IOError) ex_piff (fun _ => Raise IOError)
              (fun _ _ => Raise IOError) (fun _ _ _ _ => (0, 0)%R) (fun _ => 1%R)
              ex_source (Name "piff") (Name "affine") 1%R 0%R = Ok o /\
  so_psf o = 7%nat /\
  se_image2sky (so_wcs o) (Scalar (-1 / 2)%R) (Scalar (-1 / 2)%R) = Ok (Scalar (-1)%R, Scalar (-1)%R) /\
  se_contains_radec (fun _ _ _ _ => (0, 0)%R) o (-1)%R (-1)%R = true.
Proof.
  assert (Ha : affine_wcs 2%R 0%R 0%R 2%R 1%R 1%R = Ok ex_affine).
  { rewrite affine_wcs_cases. destruct (Req_EM_T _ _); [lra|]. unfold ex_affine. do 2 f_equal. lra. }
  split; [exact Ha|].
  destruct (C74_construction_succeeds nat (fun _ _ => Raise IOError) (fun _ _ _ => Raise IOError) ex_piff
              (fun _ => Raise IOError) (fun _ _ => Raise IOError) (fun _ _ _ _ => (0, 0)%R) (fun _ => 1%R)
              ex_source (Name "piff") (Name "affine") 1%R 0%R (AffineW ex_affine) 7%nat 3%Z 5%Z)
    as (o & Ho & Hw & Hp & Hs).
  - constructor. reflexivity.
  - eapply psf_piff; reflexivity.
  - constructor. reflexivity.
  - lia.
  - lia.
  - intros x y _. cbn [own_sky]. eauto.
  - exists o. split; [exact Ho|]. split; [exact Hp|].
    assert (E : se_image2sky (so_wcs o) (Scalar (-1 / 2)%R) (Scalar (-1 / 2)%R) = Ok (Scalar (-1)%R, Scalar (-1)%R)).
    { rewrite Hw, C73_position_to_sky. cbn [own_sky]. unfold image2sky. cbn. do 3 f_equal; lra. }
    split; [exact E|].
    eapply (C74_own_positions_contained nat _ _ _ _ _ _ _ _ _ _ _ _ o 2%R 0%R 0%R 2%R 1%R 1%R ex_affine (1 / 2)%R Ho Ha);
      [rewrite Hw; reflexivity|rewrite Hs; cbn; lia|rewrite Hs; cbn; lia|lra| | | |exact E].
    + rewrite Rabs_R0, (Rabs_pos_eq 2) by lra. lra.
    + rewrite Rabs_R0, (Rabs_pos_eq 2) by lra. lra.
    + rewrite Hs. unfold near_image. cbn [fst snd]. lra.
Qed.

(** A celestial WCS that undoes itself and depends on the colour. *)
Definition ex_galsim : wcs R :=
  Galsim true (fun c x y => Ok (x + c, y - c)%R) (fun c r d => Ok (r - c, d + c)%R)
         (fun _ _ _ => Ok (1, 0, 0, 1)%R).

Example C73_example :
  undoes (own_image ex_galsim 3%R) (own_sky ex_galsim 3%R) /\
  se_image2sky (mksw ex_galsim 1%R 3%R) (Vector [0%R; 10%R]) (Vector [0%R; 20%R])
  = Ok (Vector [(0 + 1 + 3)%R; (10 + 1 + 3)%R], Vector [(0 + 1 - 3)%R; (20 + 1 - 3)%R]).
Proof.
  split.
  - intros x y p H. cbn in H. apply Ok_inj in H. subst p. cbn. do 2 f_equal; ring.
  - reflexivity.
Qed.

Print Assumptions C73_position_to_sky.
Print Assumptions C73_sky_to_position.
Print Assumptions C73_arrays_elementwise.
Print Assumptions C73_answer_shape.
Print Assumptions C73_bad_arguments.
Print Assumptions C73_bad_wcs.
Print Assumptions C73_round_trip_from_image.
Print Assumptions C73_round_trip_from_sky.
Print Assumptions C73_affine_undoes.
Print Assumptions C73_jacobian.
Print Assumptions C73_jacobian_one_position.
Print Assumptions C73_affine_jacobian_is_derivative.
Print Assumptions C73_affine_pixel_area.
Print Assumptions C74_constructed.
Print Assumptions C74_construction_succeeds.
Print Assumptions C74_piff_and_pixmappy_belong_together.
Print Assumptions C74_unknown_wcs_name.
Print Assumptions C74_unknown_psf_name.
Print Assumptions C74_flat_galsim_refused.
Print Assumptions C74_own_positions_contained.
Print Assumptions C74_corners_contained.
Print Assumptions C73_pixel_area_is.
