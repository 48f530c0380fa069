(** Proofs about the images that contribute to a slice, in double arithmetic. *)
From Coq Require Import ZArith List Bool String Reals Lia Lra SpecFloat.
From Coq Require Import List.
From Flocq Require Import Core BinarySingleNaN.
From Verif Require Import Lib.Base Lib.Floats Model.Noise Model.SeWcs Model.TapeBumps Model.SeImage Model.PsfImage
  Model.Piff Model.SliceInputs Model.Epoch
  Spec.FloatSpec Spec.SeImageSpec Spec.SeWcsSpec Spec.PsfSpec Spec.EpochSpec Spec.EpochF64Spec
  Proofs.F64Facts Proofs.SliceBoundsF64 Proofs.SliceInputsProofs Proofs.SeImageProofs Proofs.SeWcsProofs
  Proofs.EpochProofs Props.PropSeImage Props.PropPsf Props.PropPiff.
Import ListNotations.
Open Scope list_scope.
Open Scope Z_scope.

#[local] Instance Hprec53 : Prec_gt_0 53 := eq_refl _.
#[local] Instance fexp64_ok : Valid_exp fexp64 := fexp_correct 53 1024 _.

Section D.
Context {P : Type}.
Variable w : world f64 P.
Variable op : options f64 P.

Lemma position_is (x : f64) va off :
  f64_is x va -> (Rabs va <= bpow radix2 29)%R -> Z.abs off <= 2 ^ 20 ->
  f64_is (fsub x (fofZ off)) (rnd64 (va - IZR off)) /\
  (Rabs (rnd64 (va - IZR off)) <= bpow radix2 30)%R /\
  (Rabs (rnd64 (va - IZR off) - (va - IZR off)) <= bpow radix2 (-23))%R.
Proof.
  intros Hx Ba Bo.
  assert (Ho : (Rabs (IZR off) <= IZR (2 ^ 20))%R) by (rewrite <- abs_IZR; now apply IZR_le).
  change (bpow radix2 29) with (IZR (2 ^ 29)) in Ba.
  assert (D : (Rabs (va - IZR off) <= bpow radix2 30)%R).
  { change (bpow radix2 30) with (IZR (2 ^ 30)).
    eapply Rle_trans; [apply Rabs_triang|]. rewrite Rabs_Ropp.
    assert (IZR (2 ^ 29) + IZR (2 ^ 20) <= IZR (2 ^ 30))%R by (rewrite <- plus_IZR; apply IZR_le; lia). lra. }
  split; [|split].
  - apply f64_sub_is; [exact Hx|apply f64_ofZ_is; lia|].
    apply Rle_trans with (1 := D). apply bpow_le. lia.
  - apply abs_round_le_generic; [typeclasses eauto|typeclasses eauto| |exact D].
    apply generic_format_bpow. cbn. lia.
  - exact (rnd_error (va - IZR off) 30 ltac:(lia) D).
Qed.

Lemma located_at e o ra dec x y :
  make_object w op e = Ok o -> Z.abs (e_offset e) <= 2 ^ 20 ->
  ordinary_position op e (sw_wcs (so_wcs o)) ra dec ->
  sky2image1 (so_wcs o) ra dec = Ok (x, y) ->
  exists vx vy, located_double op e (sw_wcs (so_wcs o)) ra dec vx vy /\
    f64_is x (rnd64 vx) /\ f64_is y (rnd64 vy) /\
    (Rabs (rnd64 vx) <= bpow radix2 30)%R /\ (Rabs (rnd64 vy) <= bpow radix2 30)%R /\
    (Rabs (rnd64 vx - vx) <= bpow radix2 (-23))%R /\ (Rabs (rnd64 vy - vy) <= bpow radix2 (-23))%R.
Proof.
  intros Ho Hoff Hord H. destruct (make_object_image w op e o Ho) as [_ E].
  rewrite E, sky2image1_own in H. cbn [sw_wcs sw_offset sw_color] in H.
  destruct (own_image (sw_wcs (so_wcs o)) (op_color op) ra dec) as [[a b]|x0] eqn:Ei; [|discriminate].
  apply Ok_inj in H. apply pair_equal_spec in H as [<- <-].
  destruct (Hord a b Ei) as (va & vb & Ha & Hb & Ba & Bb).
  destruct (position_is a va (e_offset e) Ha Ba Hoff) as (A1 & A2 & A3).
  destruct (position_is b vb (e_offset e) Hb Bb Hoff) as (B1 & B2 & B3).
  exists (va - IZR (e_offset e))%R, (vb - IZR (e_offset e))%R.
  split; [exists a, b, va, vb; auto 10|]. auto 10.
Qed.

Lemma widen u v c :
  (Rabs (u - v) <= bpow radix2 (-23))%R -> (Rabs (u - c) <= / 2 + bpow radix2 (-20))%R ->
  (Rabs (v - c) <= / 2 + bpow radix2 (-19))%R.
Proof.
  intros H1 H2. replace (v - c)%R with (- (u - v) + (u - c))%R by ring.
  eapply Rle_trans; [apply Rabs_triang|]. rewrite Rabs_Ropp.
  assert (bpow radix2 (-23) <= bpow radix2 (-20))%R by (apply bpow_le; lia).
  assert (bpow radix2 (-19) = 2 * bpow radix2 (-20))%R
    by (change (-19) with (1 + -20); rewrite bpow_plus; reflexivity). lra.
Qed.

Lemma bounds_box_double frac box (col row : f64) vx vy b :
  f64_is (op_frac_buffer op) frac ->
  (Rabs (frac * IZR box) <= bpow radix2 30)%R -> Z.abs box <= 2 ^ 30 ->
  f64_is col (rnd64 vx) -> f64_is row (rnd64 vy) ->
  (Rabs (rnd64 vx) <= bpow radix2 30)%R -> (Rabs (rnd64 vy) <= bpow radix2 30)%R ->
  (Rabs (rnd64 vx - vx) <= bpow radix2 (-23))%R -> (Rabs (rnd64 vy - vy) <= bpow radix2 (-23))%R ->
  compute_slice_bounds (op_frac_buffer op) box col row = Ok b ->
  exists n, square_of b n /\ box_of_double (rnd64 (frac * IZR box)) box n /\
    centred_double vx (zcolmin b) n /\ centred_double vy (zrowmin b) n.
Proof.
  intros Hf Bf Bb Hc Hr Bc Br Ec Er H.
  destruct (C43_slice_bounds_double _ _ _ _ _ _ box Hf Hc Hr Bf Bb Bc Br)
    as (b' & n & E & Sq & M & N & C1 & C2).
  rewrite H in E. apply Ok_inj in E. subst b'. exists n. split; [exact Sq|].
  split; [split; assumption|]. destruct Sq as [S1 S2].
  assert (E1 : IZR (zcolmax b) = (IZR (zcolmin b) + IZR n - 1)%R)
    by (rewrite <- plus_IZR, <- minus_IZR; f_equal; lia).
  assert (E2 : IZR (zrowmax b) = (IZR (zrowmin b) + IZR n - 1)%R)
    by (rewrite <- plus_IZR, <- minus_IZR; f_equal; lia).
  rewrite E2 in C1. rewrite E1 in C2. unfold centred_double.
  split; [apply (widen _ _ _ Ec)|apply (widen _ _ _ Er)].
  - replace (IZR (zcolmin b) + (IZR n - 1) / 2)%R
      with ((IZR (zcolmin b) + (IZR (zcolmin b) + IZR n - 1)) / 2)%R by field. exact C2.
  - replace (IZR (zrowmin b) + (IZR n - 1) / 2)%R
      with ((IZR (zrowmin b) + (IZR (zrowmin b) + IZR n - 1)) / 2)%R by field. exact C1.
Qed.

Lemma box_positive_double frac box n :
  (1 <= frac * IZR box)%R -> box_of_double (rnd64 (frac * IZR box)) box n -> 1 <= n.
Proof.
  intros H [_ K].
  assert (R1 : (1 <= rnd64 (frac * IZR box))%R).
  { unfold rnd64. rewrite <- (rnd_id 1) by (apply (int_format 1); cbn; lia).
    apply round_le; [typeclasses eauto|typeclasses eauto|exact H]. }
  assert (T : 1 <= Ztrunc (rnd64 (frac * IZR box))).
  { rewrite Ztrunc_floor by lra. apply Zfloor_lub. exact R1. }
  lia.
Qed.

Lemma fill_kept_double frac ra dec rp dp box e o col row b s flag :
  f64_is (op_frac_buffer op) frac ->
  (1 <= frac * IZR box)%R -> (Rabs (frac * IZR box) <= bpow radix2 30)%R -> Z.abs box <= 2 ^ 30 ->
  files_agree w op e -> ordinary_image w op ra dec rp dp e ->
  e_image_flags e = 0 -> make_object w op e = Ok o ->
  sky2image1 (so_wcs o) ra dec = Ok (col, row) ->
  compute_slice_bounds (op_frac_buffer op) box col row = Ok b ->
  ccd_contains_bounds (so_shape o) b (op_edge_buffer op) = true ->
  fill_object w op e o b rp dp = Ok (s, flag) ->
  kept_from_double w op frac ra dec rp dp box e (sw_wcs (so_wcs o)) (so_psf o) (so_shape o) s flag.
Proof.
  intros Hf Hb Bf Bb Hfiles [Hoff Hord] Hfl Ho Hpos Hbnd Hcon H.
  destruct (make_object_image w op e o Ho) as [Him Ew].
  destruct (Hord _ _ _ Him) as (O1 & O2 & O3).
  destruct (located_at e o ra dec col row Ho Hoff O1 Hpos) as (vx & vy & L & Lx & Ly & Bx & By & Ex & Ey).
  destruct (bounds_box_double frac box col row vx vy b Hf Bf Bb Lx Ly Bx By Ex Ey Hbnd)
    as (n & Sq & Bn & C1 & C2).
  pose proof (box_positive_double frac box n Hb Bn) as Hn.
  unfold fill_object in H. apply bind_ok in H as (pixels & Hp & H). apply bind_ok in H as (bmask & Hm & H).
  destruct (Hfiles _ _ _ _ _ Him Hp Hm) as (F1 & F2 & F3 & F4).
  apply bind_ok in H as ([sl bm] & Hs & H). apply bind_ok in H as ([x y] & Hxy & H).
  apply bind_ok in H as ([pf fl] & Hpf & H). apply Ok_inj in H. apply pair_equal_spec in H as [Es Ef].
  subst fl.
  destruct (proj1 (set_slice_spec (w_pow10 w) (w_normal w) (w_store w) pixels (op_tape_bumps op) (e_noise_seeds e)
              bmask b (so_shape o) (op_edge_buffer op) n F1 F2 F3 F4 Hn Sq Hcon) sl bm Hs)
    as (X1 & X2 & X3 & X4 & X5 & X6 & X7 & X8).
  apply C62_flag_of_set_psf in Hpf as [Hset Hflag].
  destruct (located_at e o rp dp x y Ho Hoff O2 Hxy) as (ux & uy & L' & Lx' & Ly' & Bx' & By' & Ex' & Ey').
  unfold set_psf in Hset. apply bind_ok in Hset as (a & Ha & Hset).
  apply bind_ok in Hset as ([xm ym] & Hst & Hset). apply Ok_inj in Hset. subst pf.
  assert (Hoff' : Z.abs (e_offset e) <= 2 ^ 30) by lia.
  destruct (C54_psf_images_double _ _ _ _ _ _ _ _ _ Lx' Ly' Bx' By' Hoff' Ha) as (q & raw & Q1 & Q2 & Q3).
  destruct (C54_bad_stamps_are_refused _ _ _ _ _ _ _ _ _ Ha) as (_ & Q4 & Q5).
  assert (Q6 : 0 < nrows a <= 2 ^ 30) by (destruct Q3 as [-> _]; now apply (O3 _ _ _ Q2)).
  destruct (C53_stamps_are_centred_double x y _ _ (nrows a) Lx' Ly' Bx' By' Q6) as (kx & ky & K1 & K2 & K3).
  rewrite Hst, Q5 in K3. cbn in K3. apply Ok_inj in K3. apply pair_equal_spec in K3 as [-> ->].
  assert (Odd : (IZR ((nrows a - 1) / 2) = (IZR (nrows a) - 1) / 2)%R).
  { pose proof (Z.div_mod (nrows a - 1) 2 ltac:(lia)) as D.
    assert (M0 : (nrows a - 1) mod 2 = 0).
    { rewrite Zminus_mod, Q5. reflexivity. }
    assert (E : IZR (nrows a - 1) = (2 * IZR ((nrows a - 1) / 2))%R)
      by (rewrite <- mult_IZR; f_equal; lia).
    rewrite minus_IZR in E. lra. }
  subst s. constructor; cbn [SliceInputs.sl_image_id SliceInputs.sl_box_size SliceInputs.sl_y_start
    SliceInputs.sl_x_start SliceInputs.sl_image SliceInputs.sl_weight SliceInputs.sl_bmask SliceInputs.sl_noises
    SliceInputs.sl_psf SliceInputs.sl_psf_x_start SliceInputs.sl_psf_y_start SliceInputs.sl_psf_box_size
    pf_psf pf_x_start pf_y_start pf_box_size].
  - exact Hfl.
  - reflexivity.
  - rewrite X3. exact Bn.
  - rewrite X1, X2, X3. now apply (fits_iff op _ b n Sq Hn).
  - exists vx, vy. rewrite X1, X2, X3. auto.
  - exists pixels, bmask, bm. rewrite X1, X2, X3. cbv zeta.
    split; [exact Hp|]. split; [exact Hm|]. split; [exact X7|]. split; [exact X4|]. split; [exact X5|].
    split; [exact X6|exact X8].
  - exists ux, uy, q, raw. split; [exact L'|]. split; [exact Q1|]. rewrite <- Ew. split; [exact Q2|].
    split; [exact Q3|]. split; [reflexivity|]. split; [symmetry; exact Q4|]. split; [exact Q5|].
    unfold centred_double. rewrite !minus_IZR, Odd.
    split; [apply (widen _ _ _ Ex')|apply (widen _ _ _ Ey')].
    + replace (IZR kx - (IZR (nrows a) - 1) / 2 + (IZR (nrows a) - 1) / 2)%R with (IZR kx) by ring. exact K1.
    + replace (IZR ky - (IZR (nrows a) - 1) / 2 + (IZR (nrows a) - 1) / 2)%R with (IZR ky) by ring. exact K2.
  - destruct (op_piff_failure op) as [[mx g]|]; [|destruct (w_kind w (so_psf o)); exact Hflag].
    destruct (w_kind w (so_psf o)); try exact Hflag.
    destruct Hflag as (res & Hr & Hbad). apply bind_ok in Hr as (m & Hm' & Hr).
    exists m, res. split; [now apply tested_iff|]. split; assumption.
Qed.

Lemma examine_decides_double frac ra dec rp dp box e a :
  f64_is (op_frac_buffer op) frac ->
  (1 <= frac * IZR box)%R -> (Rabs (frac * IZR box) <= bpow radix2 30)%R -> Z.abs box <= 2 ^ 30 ->
  files_agree w op e -> (e_image_flags e = 0 -> ordinary_image w op ra dec rp dp e) ->
  examine w op ra dec rp dp box e = Ok a ->
  match a with
  | Some (s, flag) => exists W m shape, image_of w op e W m shape /\
      kept_from_double w op frac ra dec rp dp box e W m shape s flag
  | None => e_image_flags e <> 0 \/ (exists o, off_the_image w op ra dec e o) \/
      exists W m shape, image_of w op e W m shape /\ no_box_fits_double op frac ra dec box e W shape
  end.
Proof.
  intros Hf Hb Bf Bb Hfiles Hord H. unfold examine in H.
  destruct (Z.eqb_spec (e_image_flags e) 0) as [Hfl|Hfl]; cbn [negb] in H.
  2:{ apply Ok_inj in H. subst a. now left. }
  specialize (Hord Hfl).
  apply bind_ok in H as (o & Ho & H).
  destruct (se_contains_radec (w_radec_to_uv w) o ra dec) eqn:Hc; cbn [negb] in H.
  2:{ apply Ok_inj in H. subst a. right. left. exists o. split; assumption. }
  apply bind_ok in H as ([col row] & Hpos & H). apply bind_ok in H as (b & Hbnd & H).
  destruct (make_object_image w op e o Ho) as [Him _].
  destruct (ccd_contains_bounds (so_shape o) b (op_edge_buffer op)) eqn:Hcon; cbn [negb] in H.
  - apply bind_ok in H as ([s flag] & Hs & H). apply Ok_inj in H. subst a.
    exists (sw_wcs (so_wcs o)), (so_psf o), (so_shape o).
    split; [exact Him|]. now apply (fill_kept_double frac ra dec rp dp box e o col row b).
  - apply Ok_inj in H. subst a. right. right.
    exists (sw_wcs (so_wcs o)), (so_psf o), (so_shape o). split; [exact Him|].
    destruct Hord as [Hoff Hord]. destruct (Hord _ _ _ Him) as (O1 & _ & _).
    destruct (located_at e o ra dec col row Ho Hoff O1 Hpos) as (vx & vy & L & Lx & Ly & Bx & By & Ex & Ey).
    destruct (bounds_box_double frac box col row vx vy b Hf Bf Bb Lx Ly Bx By Ex Ey Hbnd)
      as (n & Sq & Bn & C1 & C2).
    exists vx, vy, n, (zcolmin b), (zrowmin b). repeat (split; [assumption|]).
    rewrite <- (fits_iff op _ b n Sq (box_positive_double frac box n Hb Bn)), Hcon. discriminate.
Qed.
End D.
