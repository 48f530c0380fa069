(** C17 in double precision: the maps and the round trip. *)
From Coq Require Import ZArith List Bool Lia Reals Lra SpecFloat.
From Flocq Require Import Core BinarySingleNaN.
From Coq Require Import List.
From Verif Require Import Lib.Base Lib.Floats Model.Affine Spec.AffineSpec Spec.FloatSpec
  Proofs.F64Facts Proofs.RoundSum Proofs.AffineF64.
Import ListNotations.
Open Scope R_scope.

(** C17 in double arithmetic: the matrix with elements at most [M], and positions at most
    [P]. If the determinant is not too small, the object can be made, image2sky is the
    affine map and sky2image undoes it, up to rounding; the second error grows with
    the condition number [M * M / |determinant|]. *)
Theorem C17_round_trip_double :
  forall (a b c d px py x y : f64) (va vb vc vd vpx vpy vx vy M P : R),
  doubles_at_most [a; b; c; d] [va; vb; vc; vd] M ->
  doubles_at_most [px; py; x; y] [vpx; vpy; vx; vy] P ->
  bpow radix2 (-20) <= M <= bpow radix2 20 -> 1 <= P <= bpow radix2 30 ->
  let determinant := va * vd - vb * vc in
  M * M <= bpow radix2 20 * Rabs determinant ->
  exists w U V X Y u v x' y',
    affine_wcs a b c d px py = Ok w /\
    image2sky w x y = (U, V) /\ f64_is U u /\ f64_is V v /\
    Rabs (u - (va * (vx - vpx) + vb * (vy - vpy))) <= bpow radix2 (-49) * (M * P) /\
    Rabs (v - (vc * (vx - vpx) + vd * (vy - vpy))) <= bpow radix2 (-49) * (M * P) /\
    sky2image w U V = (X, Y) /\ f64_is X x' /\ f64_is Y y' /\
    Rabs (x' - vx) <= bpow radix2 (-47) * (M * M / Rabs determinant * P) /\
    Rabs (y' - vy) <= bpow radix2 (-47) * (M * M / Rabs determinant * P).
Proof.
  intros a b c d px py x y va vb vc vd vpx vpy vx vy M P H1 H2 RM RP det0 HD. unfold det0 in *. clear det0.
  inversion H1 as [|? ? ? ? [Ha Ba] H1b]; subst. inversion H1b as [|? ? ? ? [Hb Bb] H1c]; subst.
  inversion H1c as [|? ? ? ? [Hc Bc] H1d]; subst. inversion H1d as [|? ? ? ? [Hd Bd] _]; subst.
  inversion H2 as [|? ? ? ? [Hpx Bpx] H2b]; subst. inversion H2b as [|? ? ? ? [Hpy Bpy] H2c]; subst.
  inversion H2c as [|? ? ? ? [Hx Bx] H2d]; subst. inversion H2d as [|? ? ? ? [Hy By] _]; subst.
  change (bpow radix2 (-20)) with (/ 1048576) in RM. change (bpow radix2 20) with 1048576 in RM, HD.
  change (bpow radix2 30) with 1073741824 in RP.
  destruct (det_step a b c d va vb vc vd M P Ha Hb Hc Hd Ba Bb Bc Bd RM RP) as (D' & ED & BD).
  assert (EW : affine_wcs a b c d px py = Ok (mk_affine a b c d px py (fsub (fmul a d) (fmul c b)))).
  { unfold affine_wcs. destruct (feqb _ _) eqn:Z; [|reflexivity]. exfalso.
    assert (Z0 : f64_is (fzero : f64) 0) by (apply (f64_ofZ_is 0); lia).
    apply (f64_eqb_is _ _ _ _ ED Z0) in Z. rewrite Z in BD.
    rewrite Rminus_0_l, Rabs_Ropp in BD. pose proof uro_fine as U. pose proof uro_pos as U0.
    assert (0 < M * M) by (apply Rmult_lt_0_compat; lra).
    assert (uro * (M * M) <= / 9007199254740992 * (M * M)) by (apply Rmult_le_compat_r; lra). lra. }
  destruct (image2sky_step a b c d px py x y va vb vc vd vpx vpy vx vy M P Ha Hb Hc Hd Hpx Hpy Hx Hy
    Ba Bb Bc Bd Bpx Bpy Bx By RM RP (fsub (fmul a d) (fmul c b))) as (u & v & I).
  destruct (round_trip_step a b c d px py x y va vb vc vd vpx vpy vx vy M P Ha Hb Hc Hd Hpx Hpy Hx Hy
    Ba Bb Bc Bd Bpx Bpy Bx By RM RP HD _ EW) as (x' & y' & J).
  set (w := mk_affine a b c d px py (fsub (fmul a d) (fmul c b))) in *.
  destruct (image2sky w x y) as [U V] eqn:EI. destruct (sky2image w U V) as [X Y] eqn:ES.
  destruct I as (HU & HV & E1 & E2). destruct J as (HX & HY & E3 & E4).
  assert (K4 : bpow radix2 (-49) = 16 * uro).
  { unfold uro. replace (-49)%Z with (4 + -53)%Z by lia. rewrite bpow_plus. reflexivity. }
  assert (K6 : bpow radix2 (-47) = 64 * uro).
  { unfold uro. replace (-47)%Z with (6 + -53)%Z by lia. rewrite bpow_plus. reflexivity. }
  assert (G : 12.1 * (uro * (M * P)) <= bpow radix2 (-49) * (M * P)).
  { rewrite K4. assert (0 <= uro * (M * P)); [|lra]. pose proof uro_pos. apply Rmult_le_pos; [lra|]. apply Rmult_le_pos; lra. }
  exists w, U, V, X, Y, u, v, x', y'. rewrite K6.
  repeat match goal with |- _ /\ _ => split end; try assumption; try reflexivity; try (eapply Rle_trans; eassumption);
    rewrite Rmult_assoc; assumption.
Qed.

Example C17_example_double :
  doubles_at_most [fofZ 2; fofZ 1; fofZ (-1); fofZ 1] [2; 1; -1; 1] 2 /\
  doubles_at_most [fofZ 5; fofZ 6; fofZ 100; fofZ 200] [5; 6; 100; 200] 200 /\
  2 * 2 <= bpow radix2 20 * Rabs (2 * 1 - 1 * -1) /\
  (exists w, affine_wcs (fofZ 2 : f64) (fofZ 1) (fofZ (-1)) (fofZ 1) (fofZ 5) (fofZ 6) = Ok w /\
    image2sky w (fofZ 100) (fofZ 200) = (fofZ 384, fofZ 99) /\
    sky2image w (fofZ 384) (fofZ 99) = (fofZ 100, fofZ 200)).
Proof.
  assert (S : forall n B, IZR (Z.abs n) <= B -> (Z.abs n <= 2 ^ 53)%Z -> f64_is (fofZ n) (IZR n) /\ Rabs (IZR n) <= B).
  { intros n B L K. split; [now apply f64_ofZ_is|]. now rewrite <- abs_IZR. }
  split; [|split; [|split]].
  - repeat apply Forall2_cons; try apply Forall2_nil; apply S; cbn; lra || lia.
  - repeat apply Forall2_cons; try apply Forall2_nil; apply S; cbn; lra || lia.
  - replace (2 * 1 - 1 * -1) with 3 by lra. rewrite Rabs_pos_eq by lra. change (bpow radix2 20) with 1048576. lra.
  - eexists. split; [vm_compute; reflexivity|]. split; vm_compute; reflexivity.
Qed.

Print Assumptions C17_round_trip_double.
