(** C18 and C74 in double precision: positions on an image are contained. *)
From Coq Require Import ZArith List Bool Lia Reals Lra SpecFloat String.
From Flocq Require Import Core BinarySingleNaN.
From Coq Require Import List.
From Verif Require Import Lib.Base Lib.Floats Model.Affine Model.SkyBounds Model.SeWcs Spec.AffineSpec Spec.FloatSpec
  Spec.SeWcsSpec Proofs.BaseFacts Proofs.F64Facts Proofs.RoundSum Proofs.LanczosF64 Proofs.FwhmF64 Proofs.AffineF64
  Proofs.SliceInputsProofs Proofs.SkyBoundsF64 Proofs.SeWcsProofs Props.PropSeWcs.
Import ListNotations.
Open Scope R_scope.

(** C18 in double arithmetic: the bounds exist and no position on the image is
    rejected, if the buffer exceeds the distance from the pixel centres by the
    rounding error [2^-47 * M * P] of positions at most [P] and matrix elements at
    most [M]. *)
Theorem C18_positions_on_the_image_are_contained_double :
  forall (a b c d px py off buff : f64) (va vb vc vd vpx vpy voff vbuff M P m : R) w r2uv cosdeg (nrow ncol n_grid : Z),
  doubles_at_most [a; b; c; d] [va; vb; vc; vd] M -> doubles_at_most [px; py] [vpx; vpy] P ->
  bpow radix2 (-20) <= M <= bpow radix2 20 -> 1 <= P <= bpow radix2 30 ->
  affine_wcs a b c d px py = Ok w ->
  (1 <= nrow <= 2 ^ 20)%Z -> (1 <= ncol <= 2 ^ 20)%Z -> (1 <= n_grid <= 2 ^ 20)%Z -> 0 <= m ->
  f64_is off voff -> f64_is buff vbuff -> vbuff <= bpow radix2 60 ->
  IZR ncol + m + Rabs voff <= P / 2 -> IZR nrow + m + Rabs voff <= P / 2 ->
  m * (Rabs va + Rabs vb) + bpow radix2 (-47) * (M * P) <= vbuff ->
  m * (Rabs vc + Rabs vd) + bpow radix2 (-47) * (M * P) <= vbuff ->
  exists bb ra dec,
  get_rough_sky_bounds (image2sky w) r2uv cosdeg nrow ncol off buff n_grid (affine_is_celestial w) = Ok (bb, ra, dec) /\
  forall x y vx vy, f64_is x vx -> f64_is y vy -> near_image nrow ncol m vx vy ->
  let '(r, de) := image2sky w (fadd x off) (fadd y off) in
  ccd_contains_radec r2uv bb ra dec (affine_is_celestial w) r de = true.
Proof.
  intros a b c d px py off buff va vb vc vd vpx vpy voff vbuff M P m w r2uv cosdeg nrow ncol n
    H1 H2 RM RP EW Hr Hc Hn Hm Ho Hb Bb0 B1 B2 Q1 Q2.
  pose proof (affine_near a b c d px py va vb vc vd vpx vpy M P w H1 H2 RM RP EW) as N.
  inversion H1 as [|? ? ? ? [Ha Ba] H1b]; subst. inversion H1b as [|? ? ? ? [Hb' Bb] H1c]; subst.
  inversion H1c as [|? ? ? ? [Hc' Bc] H1d]; subst. inversion H1d as [|? ? ? ? [Hd Bd] _]; subst.
  change (bpow radix2 (-20)) with (/ 1048576) in RM. change (bpow radix2 20) with 1048576 in RM.
  change (bpow radix2 30) with 1073741824 in RP. change (bpow radix2 60) with 1152921504606846976 in Bb0.
  rewrite uro_47 in Q1, Q2. pose proof uro_fine as U1. pose proof uro_pos as U0.
  assert (W0 : / 1048576 <= M * P <= 1048576 * 1073741824) by (split; nra).
  assert (W1 : 0 <= uro * (M * P)) by (apply Rmult_le_pos; lra).
  assert (W2 : uro * uro <= uro * (M * P)) by (apply Rmult_le_compat_l; lra).
  assert (VB : 0 <= vbuff).
  { assert (0 <= m * (Rabs va + Rabs vb)); [|lra]. apply Rmult_le_pos; [lra|].
    pose proof (Rabs_pos va). pose proof (Rabs_pos vb). lra. }
  destruct (bounds_contain (image2sky w) va vb (- va * vpx - vb * vpy) vc vd (- vc * vpx - vd * vpy) M P
    (12.1 * (uro * (M * P))) (5 * (M * P)) Ba Bb Bc Bd ltac:(lra) RP N off buff voff vbuff Ho Hb ltac:(lra)
    nrow ncol n Hr Hc Hn m Hm B1 B2 r2uv cosdeg ltac:(lra) ltac:(lra)) as (bb & ra & dec & E & K).
  exists bb, ra, dec. split; [exact E|]. intros x y vx vy Hx Hy [Nx Ny]. exact (K x y vx vy Hx Hy Nx Ny).
Qed.

(** C74 in double arithmetic: a constructed image with an affine WCS reports the
    sky positions of its own pixels as contained, and those up to [m] pixels
    outside as long as these are, with the rounding error, less than 16 arcsec on
    the sky. *)
Theorem C74_own_positions_contained_double :
  forall (T : Type) load_image_wcs load_head_wcs load_piff load_psfex get_image_shape
         radec_to_uv cosdeg (si : @source f64 T) psf wc (a b c d px py offset color : f64) o
         (va vb vc vd vpx vpy voff M P m : R) w nrow ncol,
  init load_image_wcs load_head_wcs load_piff load_psfex get_image_shape radec_to_uv cosdeg
    si psf wc offset color = Ok o ->
  affine_wcs a b c d px py = Ok w -> sw_wcs (so_wcs o) = AffineW w -> so_shape o = (nrow, ncol) ->
  doubles_at_most [a; b; c; d] [va; vb; vc; vd] M -> doubles_at_most [px; py] [vpx; vpy] P ->
  doubles_at_most [offset] [voff] (P / 4) ->
  bpow radix2 (-20) <= M <= bpow radix2 20 -> P <= bpow radix2 30 ->
  (1 <= nrow <= 2 ^ 20)%Z -> (1 <= ncol <= 2 ^ 20)%Z -> 0 <= m ->
  IZR ncol + m <= P / 8 -> IZR nrow + m <= P / 8 ->
  m * (Rabs va + Rabs vb) + bpow radix2 (-47) * (M * P) <= 16 ->
  m * (Rabs vc + Rabs vd) + bpow radix2 (-47) * (M * P) <= 16 ->
  forall x y vx vy ra dec, f64_is x vx -> f64_is y vy -> near_image nrow ncol m vx vy ->
  se_image2sky (so_wcs o) (Scalar x) (Scalar y) = Ok (Scalar ra, Scalar dec) ->
  se_contains_radec radec_to_uv o ra dec = true.
Proof.
  intros T l1 l2 l3 l4 l5 r2uv cs si psf wc a b c d px py offset color o va vb vc vd vpx vpy voff M P m w nrow ncol
    H EW Ew Es H1 H2 H3 RM RP Hr Hc Hm B1 B2 Q1 Q2 x y vx vy ra de Hx Hy [Nx Ny] E.
  apply init_inv in H as (_ & _ & _ & Eo & Ec & _ & Cel & _ & _ & Hg).
  assert (Es' : so_wcs o = mksw (AffineW w) offset color)
    by (destruct (so_wcs o); cbn in *; congruence).
  clear Eo Ec. rewrite Es', Es in Hg. rewrite Es' in E, Cel. cbn [sw_wcs is_celestial] in Cel. rewrite Cel in Hg. cbn [fst snd] in Hg.
  assert (RC : 1 <= IZR ncol) by (apply (IZR_le 1); lia).
  pose proof (affine_near a b c d px py va vb vc vd vpx vpy M P w H1 H2 RM ltac:(lra) EW) as N.
  inversion H1 as [|? ? ? ? [Ha Ba] H1b]; subst. inversion H1b as [|? ? ? ? [Hb' Bb] H1c]; subst.
  inversion H1c as [|? ? ? ? [Hc' Bc] H1d]; subst. inversion H1d as [|? ? ? ? [Hd Bd] _]; subst.
  inversion H3 as [|? ? ? ? [Ho Bo] _]; subst.
  change (bpow radix2 (-20)) with (/ 1048576) in RM. change (bpow radix2 20) with 1048576 in RM.
  change (bpow radix2 30) with 1073741824 in RP.
  rewrite uro_47 in Q1, Q2. pose proof uro_fine as U1. pose proof uro_pos as U0.
  assert (W0 : / 1048576 <= M * P <= 1048576 * 1073741824) by (split; nra).
  assert (W1 : 0 <= uro * (M * P)) by (apply Rmult_le_pos; lra).
  assert (W2 : uro * uro <= uro * (M * P)) by (apply Rmult_le_compat_l; lra).
  (* the map with the offset *)
  assert (KN : forall X Y, known_sky (mksw (AffineW w) offset color) X Y = image2sky w (fadd X offset) (fadd Y offset)) by reflexivity.
  assert (RP4 : 4 <= P <= 1073741824) by lra.
  pose proof (position_is (image2sky w) va vb (- va * vpx - vb * vpy) vc vd (- vc * vpx - vd * vpy) M P
    (12.1 * (uro * (M * P))) (5 * (M * P)) Ba Bb Bc Bd ltac:(lra) N offset voff Ho) as PN.
  assert (MP : 2 * M * (uro * P) = 2 * (uro * (M * P))) by ring. rewrite MP in PN.
  assert (N2 : forall X Y x y, f64_is X x -> f64_is Y y -> Rabs x <= P / 4 -> Rabs y <= P / 4 ->
    exists u v, f64_is (fst (known_sky (mksw (AffineW w) offset color) X Y)) u /\
      f64_is (snd (known_sky (mksw (AffineW w) offset color) X Y)) v /\
      Rabs (u - (va * x + vb * y + (va * voff + vb * voff + (- va * vpx - vb * vpy)))) <= 14.1 * (uro * (M * P)) /\
      Rabs (v - (vc * x + vd * y + (vc * voff + vd * voff + (- vc * vpx - vd * vpy)))) <= 14.1 * (uro * (M * P)) /\
      Rabs u <= 5 * (M * P) /\ Rabs v <= 5 * (M * P)).
  { intros X Y x0 y0 HX HY Bx By. rewrite KN.
    destruct (PN X Y x0 y0 HX HY ltac:(lra) ltac:(lra)) as (u & v & A1 & A2 & A3 & A4 & A5 & A6).
    exists u, v. split; [exact A1|]. split; [exact A2|]. split; [|split; [|split; assumption]].
    - replace (va * x0 + vb * y0 + (va * voff + vb * voff + (- va * vpx - vb * vpy)))
        with (va * (x0 + voff) + vb * (y0 + voff) + (- va * vpx - vb * vpy)) by ring. lra.
    - replace (vc * x0 + vd * y0 + (vc * voff + vd * voff + (- vc * vpx - vd * vpy)))
        with (vc * (x0 + voff) + vd * (y0 + voff) + (- vc * vpx - vd * vpy)) by ring. lra. }
  assert (Z0 : f64_is (fzero : f64) 0) by (apply (f64_ofZ_is 0); lia).
  assert (Z16 : f64_is (fofZ 16 : f64) 16) by (apply (f64_ofZ_is 16); lia).
  assert (MP4 : 2 * M * (uro * (P / 4)) = / 2 * (uro * (M * P))) by field.
  destruct (bounds_contain_near (known_sky (mksw (AffineW w) offset color)) va vb (va * voff + vb * voff + (- va * vpx - vb * vpy))
    vc vd (vc * voff + vd * voff + (- vc * vpx - vd * vpy)) M (P / 4)
    (14.1 * (uro * (M * P))) (5 * (M * P)) Ba Bb Bc Bd ltac:(lra) ltac:(lra) N2 fzero (fofZ 16) 0 16 Z0 Z16 ltac:(lra)
    nrow ncol 4%Z Hr Hc ltac:(lia) m Hm ltac:(rewrite Rabs_R0; lra) ltac:(rewrite Rabs_R0; lra) r2uv cs
    ltac:(rewrite MP4; lra) ltac:(rewrite MP4; lra)) as (bb & ra0 & dec0 & Eb & K).
  rewrite Hg in Eb. apply Ok_inj in Eb. apply pair_equal_spec in Eb as [Eb <-]. apply pair_equal_spec in Eb as [<- <-].
  rewrite C73_position_to_sky in E. cbn [own_sky] in E. 
  assert (Ax : Rabs vx <= P / 4) by (assert (Rabs vx <= IZR ncol + m); [apply Rabs_le; lra|lra]).
  assert (RR : 1 <= IZR nrow) by (apply (IZR_le 1); lia).
  assert (Ay : Rabs vy <= P / 4) by (assert (Rabs vy <= IZR nrow + m); [apply Rabs_le; lra|lra]).
  destruct (N2 x y vx vy Hx Hy Ax Ay) as (u & v & A1 & A2 & A3 & A4 & A5 & A6). rewrite KN in A1, A2.
  destruct (image2sky w (fadd x offset) (fadd y offset)) as [r t]. cbn [fst snd] in A1, A2.
  apply Ok_inj in E. apply pair_equal_spec in E as [E1 E2]. injection E1 as <-. injection E2 as <-.
  unfold se_contains_radec. rewrite Cel. apply (K vx vy r t u v Nx Ny A1 A2); rewrite ?MP4, ?Rplus_0_r; try assumption; lra.
Qed.

(** Concrete: a one-indexed image of 300 x 200 pixels of 2 arcsec; the outer corner of its
    first pixel is on it. *)
Definition ex_wcs64 : affine f64 := mk_affine (fofZ 2) fzero fzero (fofZ 2) fone fone (fofZ 4).
Example C74_example_double :
  doubles_at_most [fofZ 2; fzero; fzero; fofZ 2] [2; 0; 0; 2] 2 /\
  doubles_at_most [fone; fone] [1; 1] 4096 /\ doubles_at_most [fone] [1] (4096 / 4) /\
  IZR 300 + 1 / 2 <= 4096 / 8 /\
  1 / 2 * (Rabs 2 + Rabs 0) + bpow radix2 (-47) * (2 * 4096) <= 16 /\
  affine_wcs (fofZ 2 : f64) fzero fzero (fofZ 2) fone fone = Ok ex_wcs64 /\
  exists o, init (fun _ _ => Raise IOError) (fun _ _ _ => Raise IOError) (fun _ _ => Raise IOError) (fun _ => Raise IOError)
              (fun _ _ => Raise IOError) (fun _ _ _ _ => (fzero, fzero)) (fun _ => fone)
              (mksrc None None None None None None None None (Some (300, 200)%Z)) (Object 7%nat)
              (Object (AffineW ex_wcs64)) fone fzero = Ok o /\
  se_image2sky (so_wcs o) (Scalar (fdiv (fofZ (-1)) (fofZ 2))) (Scalar (fdiv (fofZ (-1)) (fofZ 2)))
    = Ok (Scalar (fofZ (-1)), Scalar (fofZ (-1))) /\
  se_contains_radec (fun _ _ _ _ => (fzero, fzero)) o (fofZ (-1)) (fofZ (-1)) = true /\
  se_contains_radec (fun _ _ _ _ => (fzero, fzero)) o (fofZ (-17)) (fofZ (-1)) = false.
Proof.
  assert (S : forall n B, IZR (Z.abs n) <= B -> (Z.abs n <= 2 ^ 53)%Z -> f64_is (fofZ n) (IZR n) /\ Rabs (IZR n) <= B).
  { intros n B L K. split; [now apply f64_ofZ_is|]. now rewrite <- abs_IZR. }
  split. { repeat apply Forall2_cons; try apply Forall2_nil; apply S; cbn; lra || lia. }
  split. { repeat apply Forall2_cons; try apply Forall2_nil; apply S; cbn; lra || lia. }
  split. { repeat apply Forall2_cons; try apply Forall2_nil; apply S; cbn; lra || lia. }
  split; [lra|]. split.
  { rewrite Rabs_R0, Rabs_pos_eq, uro_47 by lra. pose proof uro_fine. pose proof uro_pos. lra. }
  split; [vm_compute; reflexivity|].
  eexists. split; [vm_compute; reflexivity|]. split; [vm_compute; reflexivity|]. split; vm_compute; reflexivity.
Qed.

Print Assumptions C18_positions_on_the_image_are_contained_double.
Print Assumptions C74_own_positions_contained_double.
