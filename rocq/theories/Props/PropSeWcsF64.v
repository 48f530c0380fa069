(** C73 in double precision: the round trip of an image with an affine WCS. *)
From Coq Require Import ZArith List Bool Lia Reals Lra SpecFloat.
From Flocq Require Import Core BinarySingleNaN.
From Coq Require Import List.
From Verif Require Import Lib.Base Lib.Floats Model.Affine Model.SeWcs Spec.AffineSpec Spec.FloatSpec
  Proofs.F64Facts Proofs.RoundSum Proofs.LanczosF64 Proofs.AffineF64 Props.PropAffineF64.
Import ListNotations.
Open Scope R_scope.

(** C73 in double arithmetic: the image can find the sky position of a pixel position, and
    the pixel position of that is the first one up to rounding, whatever the offset. *)
Theorem C73_affine_round_trip_double :
  forall (a b c d px py x y offset color : f64) (va vb vc vd vpx vpy vx vy voff M P : R),
  doubles_at_most [a; b; c; d] [va; vb; vc; vd] M ->
  doubles_at_most [px; py] [vpx; vpy] P -> doubles_at_most [x; y; offset] [vx; vy; voff] (P / 4) ->
  bpow radix2 (-20) <= M <= bpow radix2 20 -> 1 <= P <= bpow radix2 30 ->
  let determinant := va * vd - vb * vc in
  M * M <= bpow radix2 20 * Rabs determinant ->
  exists w ra dec X Y x' y',
    affine_wcs a b c d px py = Ok w /\
    se_image2sky (mksw (AffineW w) offset color) (Scalar x) (Scalar y) = Ok (Scalar ra, Scalar dec) /\
    se_sky2image (mksw (AffineW w) offset color) (Scalar ra) (Scalar dec) = Ok (Scalar X, Scalar Y) /\
    f64_is X x' /\ f64_is Y y' /\
    Rabs (x' - vx) <= bpow radix2 (-46) * (M * M / Rabs determinant * P) /\
    Rabs (y' - vy) <= bpow radix2 (-46) * (M * M / Rabs determinant * P).
Proof.
  intros a b c d px py x y offset color va vb vc vd vpx vpy vx vy voff M P H1 H2 H3 RM RP det0 HD.
  inversion H2 as [|? ? ? ? [Hpx Bpx] H2b]; subst. inversion H2b as [|? ? ? ? [Hpy Bpy] _]; subst.
  inversion H3 as [|? ? ? ? [Hx Bx] H3b]; subst. inversion H3b as [|? ? ? ? [Hy By] H3c]; subst.
  inversion H3c as [|? ? ? ? [Ho Bo] _]; subst.
  pose proof uro_fine as U. pose proof uro_pos as U0. pose proof big_80 as K.
  assert (R2 : P <= 1073741824) by (change (bpow radix2 30) with 1073741824 in RP; lra).
  assert (ADD : forall (p : f64) vp, f64_is p vp -> Rabs vp <= P / 4 ->
    exists s, f64_is (fadd p offset) s /\ Rabs (s - (vp + voff)) <= uro * P /\ Rabs s <= P).
  { intros p vp Hp Bp.
    destruct (add_step p offset vp vp (P / 4) 0 voff voff (P / 4) 0 Hp (exact_step _) Bp Ho (exact_step _) Bo ltac:(lra))
      as (s & Hs & E). exists s. split; [exact Hs|].
    assert (E2 : Rabs (s - (vp + voff)) <= uro * P).
    { eapply Rle_trans; [exact E|]. assert (uro * (P / 4 + 0 + (P / 4 + 0) + uro) <= uro * P) by (apply Rmult_le_compat_l; lra). lra. }
    split; [exact E2|]. assert (uro * P <= / 1000 * P) by (apply Rmult_le_compat_r; lra).
    pose proof (Rabs_triang vp voff).
    replace s with ((vp + voff) + (s - (vp + voff))) by ring. eapply Rle_trans; [apply Rabs_triang|]. lra. }
  destruct (ADD x vx Hx Bx) as (sx & Hsx & Esx & Bsx). destruct (ADD y vy Hy By) as (sy & Hsy & Esy & Bsy).
  assert (H4 : doubles_at_most [px; py; fadd x offset; fadd y offset] [vpx; vpy; sx; sy] P).
  { repeat apply Forall2_cons; try apply Forall2_nil; split; assumption. }
  destruct (C17_round_trip_double a b c d px py _ _ va vb vc vd vpx vpy sx sy M P H1 H4 RM RP HD)
    as (w & RA & DE & X & Y & u & v & x1 & y1 & EW & EI & _ & _ & _ & _ & ES & HX & HY & E1 & E2).
  assert (D0 : 0 < Rabs det0 /\ Rabs det0 <= 2 * (M * M)).
  { change (bpow radix2 (-20)) with (/ 1048576) in RM. change (bpow radix2 20) with 1048576 in HD.
    assert (0 < M * M) by (apply Rmult_lt_0_compat; lra). fold det0 in HD. split; [lra|].
    inversion H1 as [|? ? ? ? [Ha Ba] H1b]; subst. inversion H1b as [|? ? ? ? [Hb Bb] H1c]; subst.
    inversion H1c as [|? ? ? ? [Hc Bc] H1d]; subst. inversion H1d as [|? ? ? ? [Hd Bd] _]; subst.
    now apply (D_le va vb vc vd M). }
  fold det0 in HD, E1, E2. change (bpow radix2 20) with 1048576 in HD.
  set (k := M * M / Rabs det0) in *.
  assert (Rk : / 2 <= k <= 1048576).
  { unfold k. split; apply Rmult_le_reg_r with (Rabs det0); try lra; unfold Rdiv; rewrite Rmult_assoc, Rinv_l by lra; lra. }
  assert (K47 : bpow radix2 (-47) = 64 * uro).
  { unfold uro. replace (-47)%Z with (6 + -53)%Z by lia. rewrite bpow_plus. reflexivity. }
  assert (K46 : bpow radix2 (-46) = 128 * uro).
  { unfold uro. replace (-46)%Z with (7 + -53)%Z by lia. rewrite bpow_plus. reflexivity. }
  rewrite K47 in E1, E2.
  assert (kP : k * P <= 1048576 * P) by (apply Rmult_le_compat_r; lra).
  assert (kP2 : P <= 2 * (k * P)) by nra.
  assert (ukP : uro * (k * P) <= / 9007199254740992 * (1048576 * P)) by (apply Rmult_le_compat; try lra; apply Rmult_le_pos; lra).
  assert (ukP2 : uro * P <= uro * (2 * (k * P))) by (apply Rmult_le_compat_l; lra).
  assert (Q0 : 0 <= uro * (k * P)) by (apply Rmult_le_pos; [lra|apply Rmult_le_pos; lra]).
  assert (SUB : forall (q : f64) q1 s vp, f64_is q q1 -> Rabs (q1 - s) <= 64 * uro * (k * P) -> Rabs s <= P ->
    Rabs (s - (vp + voff)) <= uro * P ->
    exists r, f64_is (fsub q offset) r /\ Rabs (r - vp) <= bpow radix2 (-46) * (k * P)).
  { intros q q1 s vp Hq E B Es.
    destruct (sub_step q offset s q1 P _ voff voff (P / 4) 0 Hq E B Ho (exact_step _) Bo ltac:(lra)) as (r & Hr & Er).
    exists r. split; [exact Hr|]. rewrite K46.
    replace (r - vp) with ((r - (s - voff)) + (s - (vp + voff))) by ring. eapply Rle_trans; [apply Rabs_triang|].
    assert (uro * (P + 64 * uro * (k * P) + (P / 4 + 0) + uro) <= uro * (2 * P)) by (apply Rmult_le_compat_l; lra).
    lra. }
  destruct (SUB X x1 sx vx HX E1 Bsx Esx) as (x' & Hx' & Ex').
  destruct (SUB Y y1 sy vy HY E2 Bsy Esy) as (y' & Hy' & Ey').
  exists w, RA, DE, (fsub X offset), (fsub Y offset), x', y'.
  split; [exact EW|]. split.
  { unfold se_image2sky, se_method, image2sky1. cbn -[Affine.image2sky fadd]. rewrite EI. reflexivity. }
  split.
  { unfold se_sky2image, se_method, sky2image1. cbn -[Affine.sky2image fsub]. rewrite ES. reflexivity. }
  repeat match goal with |- _ /\ _ => split end; assumption.
Qed.

(** One-indexed positions: the pixel (100, 200) of a zero-indexed image. *)
Example C73_example_double :
  exists w, affine_wcs (fofZ 2 : f64) (fofZ 1) (fofZ (-1)) (fofZ 1) (fofZ 5) (fofZ 6) = Ok w /\
    se_image2sky (mksw (AffineW w) (fofZ 1) fzero) (Scalar (fofZ 100)) (Scalar (fofZ 200))
    = Ok (Scalar (fofZ 387), Scalar (fofZ 99)) /\
    se_sky2image (mksw (AffineW w) (fofZ 1) fzero) (Scalar (fofZ 387)) (Scalar (fofZ 99))
    = Ok (Scalar (fofZ 100), Scalar (fofZ 200)).
Proof. eexists. split; [vm_compute; reflexivity|]. split; vm_compute; reflexivity. Qed.

Example C73_example_double_hypotheses :
  doubles_at_most [fofZ 5; fofZ 6] [5; 6] 800 /\
  doubles_at_most [fofZ 100; fofZ 200; fofZ 1] [100; 200; 1] (800 / 4).
Proof.
  assert (S : forall n B, IZR (Z.abs n) <= B -> (Z.abs n <= 2 ^ 53)%Z -> f64_is (fofZ n) (IZR n) /\ Rabs (IZR n) <= B).
  { intros n B L K. split; [now apply f64_ofZ_is|]. now rewrite <- abs_IZR. }
  split; repeat apply Forall2_cons; try apply Forall2_nil; apply S; cbn; lra || lia.
Qed.

Print Assumptions C73_affine_round_trip_double.
