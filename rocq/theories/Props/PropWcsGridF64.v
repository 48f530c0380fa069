(** C56, C57 and C73 in double precision: lookup tables and pixel areas. *)
From Coq Require Import ZArith List Bool Lia Reals Lra SpecFloat.
From Flocq Require Import Core BinarySingleNaN.
From Coq Require Import List.
From Verif Require Import Lib.Base Lib.Floats Model.Affine Model.WcsGrid Model.SeWcs Spec.FloatSpec Spec.AffineSpec
  Spec.WcsGridSpec Proofs.BaseFacts Proofs.F64Facts Proofs.RoundSum Proofs.LanczosF64 Proofs.FwhmF64 Proofs.AffineF64
  Proofs.SkyBoundsF64 Proofs.WcsGridProofs Proofs.WcsGridF64 Props.PropWcsGrid.
Import ListNotations.
Open Scope R_scope.

(** C56 in double arithmetic: the positions of the table are exactly the crossings of the
    grid lines, moved by half a pixel, each once. *)
Theorem C56_positions_double :
  forall (sky2image se_image2sky : f64 -> f64 -> f64 * f64) (offset : f64) (dim_y dim_x delta : Z)
         (inv fwd : inversion f64),
  (0 < delta <= 2 ^ 49)%Z -> (0 <= dim_y <= 2 ^ 49)%Z -> (0 <= dim_x <= 2 ^ 49)%Z ->
  get_wcs_inverse sky2image se_image2sky offset (dim_y, dim_x) delta = Ok (inv, fwd) ->
  NoDup (inv_pts fwd) /\
  (forall X Y, In (Y, X) (inv_pts fwd) ->
    exists a b, grid_line dim_x delta a /\ grid_line dim_y delta b /\
      f64_is X (IZR a - 1 / 2) /\ f64_is Y (IZR b - 1 / 2)) /\
  (forall a b, grid_line dim_x delta a -> grid_line dim_y delta b ->
    exists X Y, In (Y, X) (inv_pts fwd) /\ f64_is X (IZR a - 1 / 2) /\ f64_is Y (IZR b - 1 / 2)).
Proof.
  intros s2i i2s off dy dx delta inv fwd Hd Hy Hx H.
  destruct (inverse_shape _ _ _ _ _ _ _ _ H) as (ys & xs & Ey & Ex & _ & ->).
  destruct (mgrid_spec _ _ _ (proj1 Hd) (proj1 Hy) Ey) as (Ny & Iy & _).
  destruct (mgrid_spec _ _ _ (proj1 Hd) (proj1 Hx) Ex) as (Nx & Ix & _).
  assert (G : forall dim a, (0 <= dim <= 2 ^ 49)%Z -> grid_line dim delta a -> (Z.abs a <= 2 ^ 50)%Z).
  { intros dim a Hdim (k & K1 & K2 & K3). change (2 ^ 50)%Z with (2 ^ 49 + 2 ^ 49)%Z. nia. }
  cbn [inv_pts]. split; [|split].
  - assert (K : forall u v, (Z.abs u <= 2 ^ 50)%Z -> (Z.abs v <= 2 ^ 50)%Z ->
      (fsub (fofZ u) fhalf : f64) = fsub (fofZ v) fhalf -> u = v).
    { intros u v Bu Bv E. pose proof (node_is u Bu) as Nu. rewrite E in Nu.
      pose proof (is_fun _ _ _ Nu (node_is v Bv)). apply eq_IZR. lra. }
    assert (L : forall p, In p (mgrid_pairs ys xs) -> (Z.abs (fst p) <= 2 ^ 50)%Z /\ (Z.abs (snd p) <= 2 ^ 50)%Z).
    { intros [b a] Hin. apply In_pairs in Hin as [Hb Ha]. split; [apply (G dy); [lia|]|apply (G dx); [lia|]]; cbn [fst snd];
        [apply Iy|apply Ix]; assumption. }
    pose proof (NoDup_pairs ys xs Ny Nx) as ND. revert L ND. generalize (mgrid_pairs ys xs). intros l L ND.
    induction ND as [|p l Hp ND IH]; cbn [map]; constructor.
    + intros Hin. apply in_map_iff in Hin as (q & E & Hq). apply pair_equal_spec in E as [E1 E2].
      destruct (L p (or_introl eq_refl)) as [L1 L2]. destruct (L q (or_intror Hq)) as [L3 L4].
      apply K in E1; [|assumption..]. apply K in E2; [|assumption..].
      apply Hp. replace p with q; [exact Hq|]. destruct p, q; cbn [fst snd] in *. congruence.
    + apply IH. intros q Hq. apply L. now right.
  - intros X Y Hin. apply in_map_iff in Hin as ([b a] & E & Hin). apply In_pairs in Hin as [Hb Ha].
    apply pair_equal_spec in E as [<- <-]. cbn [fst snd]. apply Iy in Hb. apply Ix in Ha.
    exists a, b. split; [exact Ha|]. split; [exact Hb|]. split; apply node_is; [apply (G dx)|apply (G dy)]; assumption || lia.
  - intros a b Ha Hb. exists (fsub (fofZ a) fhalf), (fsub (fofZ b) fhalf). split.
    + apply in_map_iff. exists (b, a). split; [reflexivity|]. apply In_pairs. split; [apply Iy|apply Ix]; assumption.
    + split; apply node_is; [apply (G dx)|apply (G dy)]; assumption || lia.
Qed.

(** C56: every position of the SE image, to the outer edges of its pixels, is in a
    cell of the table. *)
Theorem C56_grid_covers_the_image_double :
  forall (sky2image se_image2sky : f64 -> f64 -> f64 * f64) (offset : f64) (dim_y dim_x delta : Z)
         (inv fwd : inversion f64),
  (0 < delta <= 2 ^ 49)%Z -> (0 < dim_y <= 2 ^ 49)%Z -> (0 < dim_x <= 2 ^ 49)%Z ->
  get_wcs_inverse sky2image se_image2sky offset (dim_y, dim_x) delta = Ok (inv, fwd) ->
  forall x y : R, on_axis dim_x x -> on_axis dim_y y ->
  exists (X0 X1 Y0 Y1 : f64) (x0 y0 : R),
    f64_is X0 x0 /\ f64_is X1 (x0 + IZR delta) /\ f64_is Y0 y0 /\ f64_is Y1 (y0 + IZR delta) /\
    x0 <= x <= x0 + IZR delta /\ y0 <= y <= y0 + IZR delta /\
    In (Y0, X0) (inv_pts fwd) /\ In (Y0, X1) (inv_pts fwd) /\
    In (Y1, X0) (inv_pts fwd) /\ In (Y1, X1) (inv_pts fwd).
Proof.
  intros s2i i2s off dy dx delta inv fwd Hd Hy Hx H x y Hax Hay.
  destruct (inverse_shape _ _ _ _ _ _ _ _ H) as (ys & xs & Ey & Ex & _ & ->).
  destruct (mgrid_spec dy delta ys ltac:(lia) ltac:(lia) Ey) as (_ & Iy & _).
  destruct (mgrid_spec dx delta xs ltac:(lia) ltac:(lia) Ex) as (_ & Ix & _).
  assert (G : forall dim a, (0 < dim <= 2 ^ 49)%Z -> grid_line dim delta a -> (Z.abs a <= 2 ^ 50)%Z).
  { intros dim a Hdim (k & K1 & K2 & K3). change (2 ^ 50)%Z with (2 ^ 49 + 2 ^ 49)%Z. nia. }
  destruct (between_lines dx delta x (proj1 Hd) (proj1 Hx) Hax) as (a & Ha & Ha' & Hbx).
  destruct (between_lines dy delta y (proj1 Hd) (proj1 Hy) Hay) as (b & Hb & Hb' & Hby).
  exists (fsub (fofZ a) fhalf), (fsub (fofZ (a + delta)) fhalf), (fsub (fofZ b) fhalf), (fsub (fofZ (b + delta)) fhalf),
    (IZR a - 1 / 2), (IZR b - 1 / 2).
  replace (IZR a - 1 / 2 + IZR delta) with (IZR (a + delta) - 1 / 2) by (rewrite plus_IZR; ring).
  replace (IZR b - 1 / 2 + IZR delta) with (IZR (b + delta) - 1 / 2) by (rewrite plus_IZR; ring).
  assert (IN : forall u v, grid_line dx delta u -> grid_line dy delta v ->
    In (fsub (fofZ v) fhalf : f64, fsub (fofZ u) fhalf : f64)
      (map (fun p => (fsub (fofZ (fst p)) fhalf : f64, fsub (fofZ (snd p)) fhalf : f64)) (mgrid_pairs ys xs))).
  { intros u v Hu Hv. apply in_map_iff. exists (v, u). split; [reflexivity|]. apply In_pairs.
    split; [apply Iy|apply Ix]; assumption. }
  cbn [inv_pts].
  repeat match goal with |- _ /\ _ => split end; try assumption; try (apply node_is; first [apply (G dx); assumption|apply (G dy); assumption]);
    try (apply IN; assumption); lra.
Qed.

(** C56 in double arithmetic: at a tabulated position the forward table returns the coadd position
    as computed. *)
Theorem C56_forward_at_the_nodes_double :
  forall ct (sky2image se_image2sky : f64 -> f64 -> f64 * f64)
         (offset : f64) (dim_y dim_x delta : Z) (inv fwd : inversion f64) (x y : f64),
  reproduces ct -> (0 < delta <= 2 ^ 49)%Z -> (0 <= dim_y <= 2 ^ 49)%Z -> (0 <= dim_x <= 2 ^ 49)%Z ->
  get_wcs_inverse sky2image se_image2sky offset (dim_y, dim_x) delta = Ok (inv, fwd) ->
  In (y, x) (inv_pts fwd) ->
  let '(ra, dec) := se_image2sky x y in
  let '(xc, yc) := sky2image ra dec in
  inversion_call ct fwd x y = (fsub xc offset, fsub yc offset).
Proof.
  intros ct s2i i2s off dy dx delta inv fwd x y Hct Hd Hy Hx H Hin.
  destruct (C56_positions_double _ _ _ _ _ _ _ _ Hd Hy Hx H) as [Hnd _].
  apply In_nth_error in Hin as [k Hk].
  pose proof (proj2 (C56_entries _ _ _ _ _ _ _ _ _ H) k y x Hk) as He.
  destruct (i2s x y) as [ra dec]. destruct (s2i ra dec) as [xc yc].
  destruct He as (E1 & E2 & _). unfold inversion_call.
  rewrite (Hct _ _ _ _ _ Hnd Hk E1), (Hct _ _ _ _ _ Hnd Hk E2). reflexivity.
Qed.

(** C56: the number of grid lines that numpy computes with a rounded quotient is the
    number of grid lines. *)
Theorem C56_number_of_lines_double :
  forall (dim delta : Z) l,
  (1 <= delta <= 2 ^ 25)%Z -> (0 <= dim <= 2 ^ 25)%Z ->
  mgrid_nodes (dim + delta) delta = Ok l ->
  @mgrid_size f64 _ (dim + delta) delta = Some (Z.of_nat (length l)) /\
  forall a, In a l <-> grid_line dim delta a.
Proof.
  intros dim delta l Hd Hn H. split; [|exact (proj1 (proj2 (mgrid_spec dim delta l ltac:(lia) (proj1 Hn) H)))].
  rewrite size_is by lia. unfold mgrid_nodes in H. destruct (Z.eqb_spec delta 0); [lia|].
  destruct (Z.ltb_spec (- (- (dim + delta) / delta)) 0); [discriminate|]. injection H as <-.
  rewrite map_length, zrange_length. f_equal. lia.
Qed.

(** C57 in double arithmetic: for an affine WCS with matrix elements at most [M] the
    area is |det| up to rounding, at positions at most [P]. *)
Theorem C57_affine_area_double :
  forall (a b c d px py x y : f64) (va vb vc vd vpx vpy vx vy M P : R) w cos d2r fuel,
  doubles_at_most [a; b; c; d] [va; vb; vc; vd] M -> doubles_at_most [px; py] [vpx; vpy] P ->
  doubles_at_most [x; y] [vx; vy] (P - 2) ->
  bpow radix2 (-20) <= M <= bpow radix2 20 -> 1 <= P <= bpow radix2 30 ->
  affine_wcs a b c d px py = Ok w ->
  exists A v, compute_wcs_area (image2sky w) (affine_is_celestial w) cos d2r fuel x y fone = Some A /\ f64_is A v /\
    Rabs (v - Rabs (va * vd - vc * vb)) <= bpow radix2 (-46) * (M * M * P).
Proof.
  intros a b c d px py x y va vb vc vd vpx vpy vx vy M P w cs d2r fuel H1 H2 H3 RM RP EW.
  pose proof (affine_near a b c d px py va vb vc vd vpx vpy M P w H1 H2 RM RP EW) as N.
  inversion H1 as [|? ? ? ? [Ha Ba] H1b]; subst. inversion H1b as [|? ? ? ? [Hb Bb] H1c]; subst.
  inversion H1c as [|? ? ? ? [Hc Bc] H1d]; subst. inversion H1d as [|? ? ? ? [Hd Bd] _]; subst.
  inversion H3 as [|? ? ? ? [Hx Bx] H3b]; subst. inversion H3b as [|? ? ? ? [Hy By] _]; subst.
  change (bpow radix2 (-20)) with (/ 1048576) in RM. change (bpow radix2 20) with 1048576 in RM.
  change (bpow radix2 30) with 1073741824 in RP.
  assert (W1 : 0 <= uro * (M * P)).
  { pose proof uro_pos. apply Rmult_le_pos; [lra|]. apply Rmult_le_pos; lra. }
  destruct (area_is (image2sky w) x y va vb (- va * vpx - vb * vpy) vc vd (- vc * vpx - vd * vpy) vx vy M P P Ba Bb Bc Bd) with
    (cos := cs) (d2r := d2r) (fuel := fuel) as (A & v & E1 & E2 & E3); try assumption; try lra.
  { intros X Y x0 y0 HX HY BX BY. destruct (N X Y x0 y0 HX HY BX BY) as (u & v & A1 & A2 & A3 & A4 & A5 & A6).
    exists u, v. repeat (split; [assumption || lra|]). assumption. }
  exists A, v. split; [exact E1|]. split; [exact E2|].
  replace (bpow radix2 (-46)) with (128 * uro) by (unfold uro; replace (-46)%Z with (7 + -53)%Z by lia; rewrite bpow_plus; reflexivity).
  replace (va * vd - vc * vb) with (va * vd - vb * vc) by ring. rewrite Rmult_assoc. exact E3.
Qed.

(** C73 in double arithmetic: so is the pixel area of an image with an affine WCS. *)
Theorem C73_affine_pixel_area_double :
  forall (a b c d px py x y offset color : f64) (va vb vc vd vpx vpy vx vy voff M P : R) w cos d2r fuel,
  doubles_at_most [a; b; c; d] [va; vb; vc; vd] M -> doubles_at_most [px; py] [vpx; vpy] P ->
  doubles_at_most [offset] [voff] (P / 4) -> doubles_at_most [x; y] [vx; vy] (P / 4 - 2) ->
  bpow radix2 (-20) <= M <= bpow radix2 20 -> 1 <= P <= bpow radix2 30 ->
  affine_wcs a b c d px py = Ok w ->
  exists A v, se_pixel_area (mksw (AffineW w) offset color) cos d2r fuel x y = Ok (Some A) /\ f64_is A v /\
    Rabs (v - Rabs (va * vd - vc * vb)) <= bpow radix2 (-46) * (M * M * P).
Proof.
  intros a b c d px py x y off col va vb vc vd vpx vpy vx vy voff M P w cs d2r fuel H1 H2 H4 H3 RM RP EW.
  pose proof (affine_near a b c d px py va vb vc vd vpx vpy M P w H1 H2 RM RP EW) as N.
  inversion H1 as [|? ? ? ? [Ha Ba] H1b]; subst. inversion H1b as [|? ? ? ? [Hb Bb] H1c]; subst.
  inversion H1c as [|? ? ? ? [Hc Bc] H1d]; subst. inversion H1d as [|? ? ? ? [Hd Bd] _]; subst.
  inversion H3 as [|? ? ? ? [Hx Bx] H3b]; subst. inversion H3b as [|? ? ? ? [Hy By] _]; subst.
  inversion H4 as [|? ? ? ? [Ho Bo] _]; subst.
  change (bpow radix2 (-20)) with (/ 1048576) in RM. change (bpow radix2 20) with 1048576 in RM.
  change (bpow radix2 30) with 1073741824 in RP.
  assert (W1 : 0 <= uro * (M * P)).
  { pose proof uro_pos. apply Rmult_le_pos; [lra|]. apply Rmult_le_pos; lra. }
  assert (KN : forall X Y, known_sky (mksw (AffineW w) off col) X Y = image2sky w (fadd X off) (fadd Y off)) by reflexivity.
  pose proof (position_is (image2sky w) va vb (- va * vpx - vb * vpy) vc vd (- vc * vpx - vd * vpy) M P
    (12.1 * (uro * (M * P))) (5 * (M * P)) Ba Bb Bc Bd ltac:(lra) N off voff Ho) as PN.
  assert (MP : 2 * M * (uro * P) = 2 * (uro * (M * P))) by ring. rewrite MP in PN.
  destruct (area_is (known_sky (mksw (AffineW w) off col)) x y va vb (va * voff + vb * voff + (- va * vpx - vb * vpy))
    vc vd (vc * voff + vd * voff + (- vc * vpx - vd * vpy)) vx vy M P (P / 4) Ba Bb Bc Bd) with
    (cos := cs) (d2r := d2r) (fuel := fuel) as (A & v & E1 & E2 & E3); try assumption; try lra.
  { intros X Y x0 y0 HX HY BX BY. rewrite KN.
    destruct (PN X Y x0 y0 HX HY ltac:(lra) ltac:(lra)) as (u & v & A1 & A2 & A3 & A4 & A5 & A6).
    exists u, v. split; [exact A1|]. split; [exact A2|]. split; [|split; [|split; assumption]].
    - replace (va * x0 + vb * y0 + (va * voff + vb * voff + (- va * vpx - vb * vpy)))
        with (va * (x0 + voff) + vb * (y0 + voff) + (- va * vpx - vb * vpy)) by ring. lra.
    - replace (vc * x0 + vd * y0 + (vc * voff + vd * voff + (- vc * vpx - vd * vpy)))
        with (vc * (x0 + voff) + vd * (y0 + voff) + (- vc * vpx - vd * vpy)) by ring. lra. }
  exists A, v. split.
  { unfold se_pixel_area. cbn [image2sky1 sw_wcs sw_offset bind is_celestial]. rewrite <- E1. reflexivity. }
  split; [exact E2|].
  replace (bpow radix2 (-46)) with (128 * uro) by (unfold uro; replace (-46)%Z with (7 + -53)%Z by lia; rewrite bpow_plus; reflexivity).
  replace (va * vd - vc * vb) with (va * vd - vb * vc) by ring. rewrite Rmult_assoc. exact E3.
Qed.

(** Concrete: a table of an image of 10 x 7 pixels with step 4, and an area. *)
Example C56_example_double :
  exists inv fwd,
  get_wcs_inverse (fun u v => (u, v)) (fun x y => (x, y)) (fzero : f64) (7, 10)%Z 4 = Ok (inv, fwd) /\
  length (inv_pts fwd) = 12%nat /\
  nth_error (inv_pts fwd) 5 = Some (fdec 7 2, fdec 7 2) /\
  @mgrid_size f64 _ (10 + 4) 4 = Some 4%Z /\ @mgrid_size f64 _ (7 + 4) 4 = Some 3%Z.
Proof. eexists. eexists. split; [reflexivity|]. repeat split; vm_compute; reflexivity. Qed.

Example C57_example_double :
  doubles_at_most [fofZ 2; fofZ 1; fofZ (-1); fofZ 1] [2; 1; -1; 1] 2 /\
  doubles_at_most [fofZ 100; fofZ 200] [100; 200] (800 / 4 - 0) /\
  exists w, affine_wcs (fofZ 2 : f64) (fofZ 1) (fofZ (-1)) (fofZ 1) (fofZ 5) (fofZ 6) = Ok w /\
    compute_wcs_area (image2sky w) (affine_is_celestial w) (fun _ => fone) fzero 0 (fofZ 100) (fofZ 200) fone = Some (fofZ 3) /\
    se_pixel_area (mksw (AffineW w) fone fzero) (fun _ => fone) fzero 0 (fofZ 100) (fofZ 190) = Ok (Some (fofZ 3)).
Proof.
  assert (S : forall n B, IZR (Z.abs n) <= B -> (Z.abs n <= 2 ^ 53)%Z -> f64_is (fofZ n) (IZR n) /\ Rabs (IZR n) <= B).
  { intros n B L K. split; [now apply f64_ofZ_is|]. now rewrite <- abs_IZR. }
  split. { repeat apply Forall2_cons; try apply Forall2_nil; apply S; cbn; lra || lia. }
  split. { repeat apply Forall2_cons; try apply Forall2_nil; apply S; cbn; lra || lia. }
  eexists. split; [vm_compute; reflexivity|]. split; vm_compute; reflexivity.
Qed.

Print Assumptions C56_positions_double.
Print Assumptions C56_grid_covers_the_image_double.
Print Assumptions C56_forward_at_the_nodes_double.
Print Assumptions C56_number_of_lines_double.
Print Assumptions C57_affine_area_double.
Print Assumptions C73_affine_pixel_area_double.
