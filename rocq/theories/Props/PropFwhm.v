(** C55: the width of an image. *)
From Coq Require Import ZArith List Reals Lia Lra Permutation.
From Verif Require Import Lib.Base Lib.Floats Model.Fwhm Spec.CoaddSpec Spec.FwhmSpec
  Proofs.BaseFacts Proofs.FwhmProofs.
Import ListNotations.
Open Scope R_scope.

(** C55: the width is the diameter of the disc that has the area of the pixels
    above half of the maximum, counted with a smoothed step. *)
Theorem C55_width :
  forall (erf : R -> R) (pi : R) (image : img R) (smooth m : R),
  largest (ravel image) m ->
  measure_fwhm erf pi image smooth
  = Ok (disc_diameter pi (area_above_half erf smooth m (ravel image))).
Proof. exact fwhm_formula. Qed.

(** C55: it does not depend on the flux scale. *)
Theorem C55_flux_scale :
  forall (erf : R -> R) (pi : R) (image : img R) (smooth c : R),
  has_flux image -> 0 < c ->
  measure_fwhm erf pi (imap (Rmult c) image) smooth = measure_fwhm erf pi image smooth.
Proof. exact fwhm_scale. Qed.

(** C55: nor on where the pixels are: images with the same pixel values (of
    whatever shape: shifted, flipped, transposed) have the same width. *)
Theorem C55_pixel_order :
  forall (erf : R -> R) (pi : R) (image image' : img R) (smooth : R),
  Permutation (ravel image) (ravel image') ->
  measure_fwhm erf pi image smooth = measure_fwhm erf pi image' smooth.
Proof. exact fwhm_perm. Qed.

(** C55: it is positive (the weights [1 / fwhm ** 4] exist) ... *)
Theorem C55_positive :
  forall (erf : R -> R) (pi : R) (image : img R) (smooth : R),
  0 < pi -> (forall v, -1 < erf v) -> (0 < nrows image)%Z -> (0 < ncols image)%Z ->
  exists w, measure_fwhm erf pi image smooth = Ok w /\ 0 < w.
Proof.
  intros erf pi im smooth Hp He Hr Hc.
  assert (Hin : In (px im 0 0) (ravel im)).
  { apply NoiseProofs.In_ravel. exists 0%Z, 0%Z. split; [split; lia|reflexivity]. }
  assert (Hne : ravel im <> []) by (intros E; rewrite E in Hin; exact Hin).
  destruct (largest_exists _ Hne) as [m Hm]. eexists. split; [exact (fwhm_formula _ _ _ _ m Hm)|].
  unfold disc_diameter. apply Rmult_lt_0_compat; [lra|]. apply sqrt_lt_R0.
  apply Rdiv_lt_0_compat; [|exact Hp]. apply total_pos.
  - destruct (ravel im); [congruence|discriminate].
  - intros x Hx. apply in_map_iff in Hx as (v & <- & _).
    pose proof (He ((v / m - 1 / 2) / smooth)). lra.
Qed.

(** C55: ... at most the diameter of the disc with the area of the image ... *)
Theorem C55_at_most_the_image :
  forall (erf : R -> R) (pi : R) (image : img R) (smooth w : R),
  0 < pi -> (forall v, erf v <= 1) -> measure_fwhm erf pi image smooth = Ok w ->
  w <= disc_diameter pi (INR (length (ravel image))).
Proof.
  intros erf pi im smooth w Hp He H.
  destruct (ravel im) as [|a l] eqn:E.
  - rewrite (fwhm_empty _ _ _ _ E) in H. discriminate.
  - destruct (largest_exists (ravel im)) as [m Hm]; [rewrite E; discriminate|].
    rewrite (fwhm_formula _ _ _ _ m Hm) in H. apply SliceInputsProofs.Ok_inj in H. subst w.
    rewrite <- E. apply diameter_mono; [exact Hp|].
    replace (INR (length (ravel im))) with (total (map (fun _ : R => 1) (ravel im))).
    + apply total_mono. apply Forall2_map_same. intros x _.
      pose proof (He ((x / m - 1 / 2) / smooth)). lra.
    + clear. induction (ravel im) as [|b k IH]; [reflexivity|].
      cbn [map length]. rewrite S_INR. unfold total in *. cbn [fold_right]. lra.
Qed.

(** C55: ... and does not decrease when pixels are raised, the maximum staying
    the same. *)
Theorem C55_wider_images_are_wider :
  forall (erf : R -> R) (pi : R) (image image' : img R) (smooth m w w' : R),
  0 < pi -> 0 < smooth -> 0 < m -> (forall u v, u <= v -> erf u <= erf v) ->
  largest (ravel image) m -> largest (ravel image') m ->
  Forall2 Rle (ravel image) (ravel image') ->
  measure_fwhm erf pi image smooth = Ok w -> measure_fwhm erf pi image' smooth = Ok w' -> w <= w'.
Proof.
  intros erf pi im im' smooth m w w' Hp Hs Hpos He Hm Hm' Hle H H'.
  rewrite (fwhm_formula _ _ _ _ m Hm) in H. apply SliceInputsProofs.Ok_inj in H. subst w.
  rewrite (fwhm_formula _ _ _ _ m Hm') in H'. apply SliceInputsProofs.Ok_inj in H'. subst w'.
  apply diameter_mono; [exact Hp|]. apply total_mono.
  clear Hm Hm'. induction Hle as [|u v l l' Huv _ IH]; cbn [map]; [constructor|].
  constructor; [|exact IH].
  assert (erf ((u / m - 1 / 2) / smooth) <= erf ((v / m - 1 / 2) / smooth)); [|lra].
  apply He. unfold Rdiv at 1 4. apply Rmult_le_compat_r; [left; apply Rinv_0_lt_compat; exact Hs|].
  assert (u / m <= v / m); [|lra].
  unfold Rdiv. apply Rmult_le_compat_r; [left; apply Rinv_0_lt_compat; exact Hpos|exact Huv].
Qed.

(** C55: an image without pixels is refused. *)
Theorem C55_empty :
  forall (erf : R -> R) (pi : R) (image : img R) (smooth : R),
  ravel image = [] -> measure_fwhm erf pi image smooth = Raise ValueError.
Proof. exact fwhm_empty. Qed.

(** C55: the default smoothing is a tenth of the maximum. *)
Theorem C55_default : (default_smooth : R) = 1 / 10.
Proof. reflexivity. Qed.

Definition fwhm_ex : img R := of_rows 0 [[1; 4]; [2; 8]].

Example C55_example_flux : has_flux fwhm_ex /\ largest (ravel fwhm_ex) 8.
Proof.
  split.
  - exists 1%Z, 1%Z. split; [split; cbn; lia|]. change (0 < 8). lra.
  - change (largest [1; 4; 2; 8] 8). split; [cbn [In]; tauto|].
    intros x [<-|[<-|[<-|[<-|[]]]]]; lra.
Qed.

Example C55_example_order :
  Permutation (ravel fwhm_ex) (ravel (of_rows 0 [[8; 4; 2; 1]])).
Proof.
  change (Permutation [1; 4; 2; 8] [8; 4; 2; 1]).
  apply (Permutation_trans (l' := rev [8; 2; 4; 1])); [reflexivity|].
  apply (Permutation_trans (Permutation_sym (Permutation_rev _))).
  apply perm_skip. apply perm_swap.
Qed.

(** With a sharp step (a function that satisfies the hypotheses of
    [C55_wider_images_are_wider] and [C55_at_most_the_image]) exactly the pixel 8
    and half of the pixel 4 count. *)
Example C55_example_width :
  measure_fwhm (fun v => if Rlt_dec 0 v then 1 else if Rlt_dec v 0 then -1 else 0) (3 / 8)
    fwhm_ex 1 = Ok 4.
Proof.
  rewrite (C55_width _ _ _ _ 8) by apply C55_example_flux.
  f_equal. unfold disc_diameter, area_above_half.
  change (ravel fwhm_ex) with [1; 4; 2; 8]. cbn [map]. unfold total. cbn [fold_right].
  repeat (destruct (Rlt_dec _ _); try lra).
  replace (_ / (3 / 8)) with (2 * 2) by lra. rewrite sqrt_square; lra.
Qed.

Print Assumptions C55_width.
Print Assumptions C55_flux_scale.
Print Assumptions C55_pixel_order.
Print Assumptions C55_positive.
Print Assumptions C55_at_most_the_image.
Print Assumptions C55_wider_images_are_wider.
