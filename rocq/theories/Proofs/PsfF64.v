(** PSF stamps in double arithmetic. *)
From Coq Require Import ZArith Reals SpecFloat Lia Lra Bool.
From Flocq Require Import Core.
From Verif Require Import Lib.Base Lib.Floats Model.SeImage Model.PsfImage
  Proofs.F64Facts Proofs.SeImageProofs Proofs.LocateProofs Proofs.SliceBoundsF64 Proofs.NearestF64.
Open Scope Z_scope.

(** The pixel nearest to a position. *)
Lemma floor_half_f64 (v : f64) (x : R) : f64_is v x -> (Rabs x <= bpow radix2 30)%R ->
  exists k, ffloor (fadd v (fhalf : f64)) = Some k /\ Z.abs k <= 2 ^ 31 /\
    (Rabs (x - IZR k) <= / 2 + slack)%R.
Proof.
  intros Hv Hx.
  change (bpow radix2 30) with (IZR (2 ^ 30)) in Hx.
  assert (S0 : (0 < slack <= / 2)%R).
  { unfold slack. split; [apply bpow_gt_0|]. change (/ 2)%R with (bpow radix2 (-1)). apply bpow_le. lia. }
  assert (K1 : (1 <= IZR (2 ^ 30))%R) by (apply (IZR_le 1); lia).
  assert (K31 : (IZR (2 ^ 31) = 2 * IZR (2 ^ 30))%R) by (rewrite <- mult_IZR; reflexivity).
  assert (D : (Rabs (x + / 2) <= bpow radix2 31)%R).
  { change (bpow radix2 31) with (IZR (2 ^ 31)).
    eapply Rle_trans; [apply Rabs_triang|]. rewrite (Rabs_pos_eq (/ 2)) by lra. lra. }
  assert (I : f64_is (SFadd 53 1024 v (fhalf : f64)) (rnd (x + / 2))).
  { apply f64_add_is; [exact Hv|exact half_is|]. eapply Rle_trans; [exact D|]. apply bpow_le. lia. }
  pose proof (rnd_error (x + / 2) 31 ltac:(lia) D) as E.
  assert (E' : (Rabs (rnd (x + / 2) - (x + / 2)) <= slack)%R).
  { eapply Rle_trans; [exact E|]. unfold slack. apply bpow_le. lia. }
  change (ffloor (fadd v (fhalf : f64))) with (f64_floor (SFadd 53 1024 v (fhalf : f64))).
  rewrite (f64_floor_is _ _ I). set (y := rnd (x + / 2)) in *.
  exists (Zfloor y). split; [reflexivity|].
  pose proof (Zfloor_spec y) as [A B]. apply Rabs_le_inv in E', Hx.
  split.
  - assert (- 2 ^ 31 <= Zfloor y) by (apply Zfloor_lub; rewrite opp_IZR; lra).
    assert (Zfloor y <= 2 ^ 31) by (apply le_IZR; lra). lia.
  - apply Rabs_le. lra.
Qed.

(** Where a stamp that is centred on pixel [k] starts. *)
Lemma stamp_start (k dim : Z) : Z.abs k <= 2 ^ 31 -> 0 < dim <= 2 ^ 30 ->
  f64_is (fsub (fofZ k) (fdiv (fofZ (dim - 1)) (fofZ 2)) : f64) (IZR (2 * k - (dim - 1)) / 2).
Proof.
  intros Hk Hd.
  change (fsub (fofZ k) (fdiv (fofZ (dim - 1)) (fofZ 2)) : f64)
    with (SFsub 53 1024 (f64_ofZ k) (SFdiv 53 1024 (f64_ofZ (dim - 1)) (f64_ofZ 2))).
  apply half_is_diff; [apply ofZ_is_half; lia|apply cen_offset_is; lia|lia].
Qed.

Lemma half_trunc_odd (m : Z) : Ztrunc (IZR (2 * m) / 2) = m.
Proof. rewrite mult_IZR. replace (2 * IZR m / 2)%R with (IZR m) by field. apply Ztrunc_IZR. Qed.

Lemma stamp_bounds_floor (x y : f64) (kx ky dim : Z) :
  ffloor (fadd x (fhalf : f64)) = Some kx -> ffloor (fadd y (fhalf : f64)) = Some ky ->
  Z.abs kx <= 2 ^ 31 -> Z.abs ky <= 2 ^ 31 -> 0 < dim <= 2 ^ 30 ->
  compute_psf_stamp_bounds x y dim =
    if dim mod 2 =? 1 then Ok (kx - (dim - 1) / 2, ky - (dim - 1) / 2) else Raise AssertionError.
Proof.
  intros Ex Ey Ax Ay Hd.
  unfold compute_psf_stamp_bounds. rewrite Ex, Ey.
  pose proof (stamp_start kx dim Ax Hd) as Sx. pose proof (stamp_start ky dim Ay Hd) as Sy.
  set (sx := fsub (fofZ kx) _) in *. set (sy := fsub (fofZ ky) _) in *.
  change (ftrunc sx) with (f64_trunc sx). change (ftrunc sy) with (f64_trunc sy).
  rewrite (f64_trunc_is _ _ Sx), (f64_trunc_is _ _ Sy).
  assert (P : forall (s : f64) (k : Z), Z.abs k <= 2 ^ 31 ->
     f64_is s (IZR (2 * k - (dim - 1)) / 2) ->
     feqb s (fofZ (Ztrunc (IZR (2 * k - (dim - 1)) / 2))) = (dim mod 2 =? 1) /\
     (dim mod 2 = 1 -> Ztrunc (IZR (2 * k - (dim - 1)) / 2) = k - (dim - 1) / 2)).
  { intros s k Hk Hs.
    pose proof (Z.div_mod dim 2 ltac:(lia)) as DM. pose proof (Z.mod_pos_bound dim 2 ltac:(lia)) as MB.
    assert (Dc : dim mod 2 = 1 \/ dim mod 2 = 0) by lia.
    assert (Q : Z.abs (Ztrunc (IZR (2 * k - (dim - 1)) / 2)) <= 2 ^ 53).
    { apply le_IZR. rewrite <- Ztrunc_abs. rewrite Ztrunc_floor by apply Rabs_pos.
      eapply Rle_trans; [apply Zfloor_lb|].
      unfold Rdiv. rewrite Rabs_mult, (Rabs_pos_eq (/ 2)) by lra. rewrite <- abs_IZR.
      assert (IZR (Z.abs (2 * k - (dim - 1))) <= IZR (2 ^ 53))%R by (apply IZR_le; lia).
      assert (0 <= IZR (Z.abs (2 * k - (dim - 1))))%R by (apply IZR_le; lia). lra. }
    pose proof (f64_eqb_is s (f64_ofZ (Ztrunc (IZR (2 * k - (dim - 1)) / 2))) _ _ Hs (f64_ofZ_is _ Q)) as FE.
    change (feqb s (fofZ (Ztrunc (IZR (2 * k - (dim - 1)) / 2))))
      with (feqb s (f64_ofZ (Ztrunc (IZR (2 * k - (dim - 1)) / 2)))).
    destruct Dc as [D1|D0].
    - assert (Hdim : dim - 1 = 2 * ((dim - 1) / 2)).
      { assert ((dim - 1) / 2 = dim / 2) by (rewrite <- (Z.div_unique (dim - 1) 2 (dim / 2) 0); lia). lia. }
      assert (T : Ztrunc (IZR (2 * k - (dim - 1)) / 2) = k - (dim - 1) / 2).
      { replace (2 * k - (dim - 1)) with (2 * (k - (dim - 1) / 2)) by lia. apply half_trunc_odd. }
      split; [|intros _; exact T].
      rewrite D1. cbn [Z.eqb Pos.eqb]. apply FE. rewrite T.
      replace (2 * k - (dim - 1)) with (2 * (k - (dim - 1) / 2)) by lia. rewrite mult_IZR. field.
    - split; [|lia]. rewrite D0. change (0 =? 1) with false.
      destruct (feqb _ _) eqn:FB; [exfalso|reflexivity].
      apply FE in FB. set (q := Ztrunc _) in FB.
      assert (IZR (2 * k - (dim - 1)) = IZR (2 * q))%R by (rewrite mult_IZR; lra).
      apply eq_IZR in H. lia. }
  destruct (P sy ky Ay Sy) as [Fy Ty]. destruct (P sx kx Ax Sx) as [Fx Tx].
  rewrite Fx, Fy. destruct (Z.eqb_spec (dim mod 2) 1) as [D|D]; cbn [negb]; [|reflexivity].
  rewrite (Tx D), (Ty D). reflexivity.
Qed.

Lemma stamp_bounds_f64 (x y : f64) (vx vy : R) (dim : Z) :
  f64_is x vx -> f64_is y vy -> (Rabs vx <= bpow radix2 30)%R -> (Rabs vy <= bpow radix2 30)%R ->
  0 < dim <= 2 ^ 30 ->
  exists kx ky, (Rabs (vx - IZR kx) <= / 2 + slack)%R /\ (Rabs (vy - IZR ky) <= / 2 + slack)%R /\
    compute_psf_stamp_bounds x y dim =
    if dim mod 2 =? 1 then Ok (kx - (dim - 1) / 2, ky - (dim - 1) / 2) else Raise AssertionError.
Proof.
  intros Hx Hy Bx By Hd.
  destruct (floor_half_f64 x vx Hx Bx) as (kx & Ex & Ax & Nx).
  destruct (floor_half_f64 y vy Hy By) as (ky & Ey & Ay & Ny).
  exists kx, ky. split; [exact Nx|]. split; [exact Ny|]. now apply stamp_bounds_floor.
Qed.

Lemma coadd_layout_f64 (col row : f64) (vc vr : R) (box off : Z) :
  f64_is col vc -> f64_is row vr -> (Rabs vc <= bpow radix2 30)%R -> (Rabs vr <= bpow radix2 30)%R ->
  0 < box <= 2 ^ 30 -> Z.abs off <= 2 ^ 30 ->
  exists kcol krow, (Rabs (vc - IZR kcol) <= / 2 + slack)%R /\ (Rabs (vr - IZR krow) <= / 2 + slack)%R /\
    if box mod 2 =? 1 then
      exists srow scol, build_coadd_psf_layout col row box off = Ok ((kcol, krow), (srow, scol)) /\
        f64_is srow (IZR (krow - off - (box - 1) / 2)) /\ f64_is scol (IZR (kcol - off - (box - 1) / 2))
    else build_coadd_psf_layout col row box off = Raise AssertionError.
Proof.
  intros Hc Hr Bc Br Hb Ho.
  destruct (floor_half_f64 col vc Hc Bc) as (kc & Ec & Ac & Nc).
  destruct (floor_half_f64 row vr Hr Br) as (kr & Er & Ar & Nr).
  exists kc, kr. split; [exact Nc|]. split; [exact Nr|].
  unfold build_coadd_psf_layout. rewrite Ec, Er.
  pose proof (cen_offset_is box ltac:(lia)) as Hh.
  pose proof (half_is_diff (f64_ofZ (kr - off)) _ _ _ (ofZ_is_half (kr - off) ltac:(lia)) Hh ltac:(lia)) as Sr.
  pose proof (half_is_diff (f64_ofZ (kc - off)) _ _ _ (ofZ_is_half (kc - off) ltac:(lia)) Hh ltac:(lia)) as Sc.
  change (fdiv (fofZ (box - 1)) (fofZ 2) : f64) with (SFdiv 53 1024 (f64_ofZ (box - 1)) (f64_ofZ 2)).
  set (half := SFdiv 53 1024 (f64_ofZ (box - 1)) (f64_ofZ 2)) in *.
  change (ftrunc half) with (f64_trunc half). rewrite (f64_trunc_is _ _ Hh).
  pose proof (Z.div_mod box 2 ltac:(lia)) as DM. pose proof (Z.mod_pos_bound box 2 ltac:(lia)) as MB.
  assert (Q : Z.abs (Ztrunc (IZR (box - 1) / 2)) <= 2 ^ 53).
  { apply le_IZR. rewrite <- Ztrunc_abs. rewrite Ztrunc_floor by apply Rabs_pos.
    eapply Rle_trans; [apply Zfloor_lb|].
    unfold Rdiv. rewrite Rabs_mult, (Rabs_pos_eq (/ 2)) by lra. rewrite <- abs_IZR.
    assert (IZR (Z.abs (box - 1)) <= IZR (2 ^ 53))%R by (apply IZR_le; lia).
    assert (0 <= IZR (Z.abs (box - 1)))%R by (apply IZR_le; lia). lra. }
  pose proof (f64_eqb_is (f64_ofZ (Ztrunc (IZR (box - 1) / 2))) half _ _ (f64_ofZ_is _ Q) Hh) as FE.
  change (feqb (fofZ (Ztrunc (IZR (box - 1) / 2))) half)
    with (SFeqb (f64_ofZ (Ztrunc (IZR (box - 1) / 2))) half).
  destruct (Z.eqb_spec (box mod 2) 1) as [D|D].
  - assert (Hbox : box - 1 = 2 * ((box - 1) / 2)).
    { assert ((box - 1) / 2 = box / 2) by (rewrite <- (Z.div_unique (box - 1) 2 (box / 2) 0); lia). lia. }
    assert (T : SFeqb (f64_ofZ (Ztrunc (IZR (box - 1) / 2))) half = true).
    { apply FE. rewrite Hbox, half_trunc_odd, mult_IZR. field. }
    rewrite T. cbn [negb]. eexists _, _. split; [reflexivity|].
    assert (V : forall k, (IZR (2 * (k - off) - (box - 1)) / 2)%R = IZR (k - off - (box - 1) / 2)).
    { intros k. replace (2 * (k - off) - (box - 1)) with (2 * (k - off - (box - 1) / 2)) by lia.
      rewrite mult_IZR. field. }
    rewrite V in Sr, Sc. split; assumption.
  - destruct (SFeqb _ _) eqn:FB; [exfalso|reflexivity].
    pose proof (proj1 FE eq_refl) as E. set (q := Ztrunc _) in E.
    assert (H : IZR (box - 1) = IZR (2 * q)) by (rewrite mult_IZR; lra).
    apply eq_IZR in H. lia.
Qed.
