(** C55 in double precision. *)
From Coq Require Import ZArith List Bool Lia Reals Lra SpecFloat.
From Flocq Require Import Core BinarySingleNaN.
From Coq Require Import List.
From Verif Require Import Lib.Base Lib.Floats Model.Fwhm Spec.FloatSpec Spec.CoaddSpec Spec.FwhmSpec
  Proofs.F64Facts Proofs.RoundSum Proofs.FwhmF64.
Import ListNotations.
Open Scope R_scope.

(** C55: the width computed on doubles exists, and up to rounding it is the diameter of the
    disc that has the area of the pixels above half of the maximum; the arguments at
    which the error function is taken are those of the exact formula up to rounding. It
    is between 1/1024 and 1024 pixels, so that weights can be made from it. *)
Theorem C55_width_double :
  forall (erf : f64 -> f64) (E : R -> R) (pi : f64) (p : R) (image : img f64) (values : list R)
    (smooth : f64) (s m : R),
  error_function erf E -> f64_is pi p -> 2 <= p <= 4 ->
  f64_is smooth s -> bpow radix2 (-20) <= s <= bpow radix2 20 ->
  Forall2 f64_is (ravel image) values -> (Z.of_nat (length values) <= 2 ^ 18)%Z ->
  Forall (fun v => Rabs v <= bpow radix2 100) values ->
  largest values m -> bpow radix2 (-100) <= m ->
  exists x w args, measure_fwhm erf pi image smooth = Ok x /\ f64_is x w /\
    Forall2 (fun v a => Rabs (a - (v / m - 1 / 2) / s) <= bpow radix2 (-51) * ((Rabs (v / m) + 1) / s))
      values args /\
    let exact := disc_diameter p (total (map (fun a => (1 + E a) / 2) args)) in
    Rabs (w - exact) <= (INR (length values) + 5) * bpow radix2 (-52) * exact /\
    bpow radix2 (-10) <= w <= bpow radix2 10.
Proof.
  intros erf E pi p image values smooth s m (He & HB & H0) Hp Rp Hs Rs Hv Hn Bv Hm Bm.
  destruct (fwhm_f64 erf E (fun x v H => conj (He x v H) (HB v)) H0 pi p Hp Rp smooth s Hs Rs
    image values m Hv Hn Bv Hm Bm) as (x & w & E1 & E2 & C & [A1 A2] & D).
  set (args := map (fun v => pixel_arg v m s) values) in *.
  exists x, w, args. split; [exact E1|]. split; [exact E2|]. split; [exact D|].
  set (A := total (map (fun a => (1 + E a) / 2) args)) in *. cbv zeta.
  assert (N : INR (length values) <= 262144) by now apply INR_18. pose proof (pos_INR (length values)) as N0.
  assert (Ip : / 4 <= / p <= / 2) by (split; apply Rinv_le; lra).
  assert (R1 : / 8 <= A / p <= 131072) by (unfold Rdiv; split; nra).
  assert (R2 : / 4 <= sqrt (A / p) <= 400).
  { replace (/ 4) with (sqrt (/ 4 * / 4)) by (apply sqrt_square; lra).
    replace 400 with (sqrt (400 * 400)) by (apply sqrt_square; lra).
    split; apply sqrt_le_1; lra. }
  assert (R3 : / 2 <= disc_diameter p A <= 800) by (unfold disc_diameter; lra).
  pose proof uro_small as U. pose proof uro_pos as U0.
  assert (K : INR (length values + 5) * uro <= / 2).
  { rewrite plus_INR. apply Rle_trans with (300000 * uro); [apply Rmult_le_compat_r; [lra|cbn [INR]; lra]|lra]. }
  pose proof (close_bound _ _ _ K C) as G. rewrite (Rabs_pos_eq (disc_diameter p A)) in G by lra.
  rewrite plus_INR in G. replace (INR 5) with 5 in G by (cbn; lra). split; [exact G|].
  assert (T : bpow radix2 (-52) <= / 1073741824) by (apply Rle_trans with (bpow radix2 (-30)); [apply bpow_le; lia|right; reflexivity]).
  pose proof (bpow_gt_0 radix2 (-52)) as T0.
  assert (T1 : (INR (length values) + 5) * bpow radix2 (-52) <= 300000 * / 1073741824) by (apply Rmult_le_compat; lra).
  assert (T2 : (INR (length values) + 5) * bpow radix2 (-52) * disc_diameter p A <= 300000 * / 1073741824 * 800).
  { apply Rmult_le_compat; try lra. apply Rmult_le_pos; lra. }
  apply Rabs_le_inv in G. change (bpow radix2 (-10)) with (/ 1024). change (bpow radix2 10) with 1024. lra.
Qed.

(** C55: an image whose pixels are those of another one times a positive constant,
    exactly (say, a power of two), has the same width in every bit. *)
Theorem C55_flux_scale_double :
  forall (erf : f64 -> f64) (pi smooth : f64) (image image' : img f64) (c : R) (values : list R) (m : R),
  0 < c -> Forall2 f64_is (ravel image) values -> Forall2 f64_is (ravel image') (map (Rmult c) values) ->
  largest values m -> 0 < m -> Forall (fun v => Rabs (v / m) <= bpow radix2 999) values ->
  measure_fwhm erf pi image' smooth = measure_fwhm erf pi image smooth.
Proof. exact fwhm_scale_f64. Qed.

(** A step function, the double nearest to pi, and two images with the factor 1/2. *)
Definition step_erf (x : f64) : f64 := if fltb x fzero then fofZ (-1) else fofZ 1.
Definition np_pi : f64 := S754_finite false 7074237752028440 (-51).
Definition fwhm_values : list R := map IZR [1; 4; -2; 8]%Z.
Definition fwhm_image : img f64 := of_rows fzero [[fofZ 1; fofZ 4]; [fofZ (-2); fofZ 8]].
Definition fwhm_image_half : img f64 := of_rows fzero [[fdec 5 10; fofZ 2]; [fofZ (-1); fofZ 4]].

Example C55_example_double :
  error_function step_erf (fun v => if Rlt_dec v 0 then -1 else 1) /\
  (exists p, f64_is np_pi p /\ 2 <= p <= 4) /\
  Forall2 f64_is (ravel fwhm_image) fwhm_values /\
  Forall2 f64_is (ravel fwhm_image_half) (map (Rmult (/ 2)) fwhm_values) /\
  largest fwhm_values 8 /\
  measure_fwhm step_erf np_pi fwhm_image (default_smooth : f64)
  = measure_fwhm step_erf np_pi fwhm_image_half (default_smooth : f64) /\
  measure_fwhm step_erf np_pi fwhm_image (default_smooth : f64)
  = Ok (S754_finite false 7186705221432913 (-52)).
Proof.
  split; [split; [|split]|].
  - intros x v H. unfold step_erf. assert (Z0 : f64_is (fzero : f64) 0) by (apply (f64_ofZ_is 0); lia).
    pose proof (f64_ltb_is x fzero v 0 H Z0) as L. change (SFltb x fzero) with (fltb x fzero) in L.
    destruct (fltb x fzero), (Rlt_dec v 0) as [D|D].
    + apply (f64_ofZ_is (-1)). lia.
    + exfalso. apply D. now apply L.
    + destruct L as [_ L]. discriminate (L D).
    + apply (f64_ofZ_is 1). lia.
  - intros v. destruct (Rlt_dec v 0); lra.
  - intros v Hv. destruct (Rlt_dec v 0); lra.
  - split; [|split; [|split; [|split; [|split]]]].
    + exists (f64_val np_pi). split; [repeat split|].
      change (f64_val np_pi) with (7074237752028440 * / 2251799813685248). lra.
    + change (Forall2 f64_is [fofZ 1; fofZ 4; fofZ (-2); fofZ 8] [1; 4; -2; 8]).
      apply Forall2_cons; [apply (f64_ofZ_is 1); lia|]. apply Forall2_cons; [apply (f64_ofZ_is 4); lia|].
      apply Forall2_cons; [apply (f64_ofZ_is (-2)); lia|]. apply Forall2_cons; [apply (f64_ofZ_is 8); lia|apply Forall2_nil].
    + change (Forall2 f64_is [fdec 5 10; fofZ 2; fofZ (-1); fofZ 4] [/ 2 * 1; / 2 * 4; / 2 * -2; / 2 * 8]).
      replace (/ 2 * 1) with (1 / 2) by lra. replace (/ 2 * 4) with 2 by lra.
      replace (/ 2 * -2) with (-1) by lra. replace (/ 2 * 8) with 4 by lra.
      apply Forall2_cons; [|]. { change (fdec 5 10 : f64) with (fhalf : f64). exact half_is. }
      apply Forall2_cons; [apply (f64_ofZ_is 2); lia|]. apply Forall2_cons; [apply (f64_ofZ_is (-1)); lia|].
      apply Forall2_cons; [apply (f64_ofZ_is 4); lia|apply Forall2_nil].
    + change (largest [1; 4; -2; 8] 8). split; [cbn [In]; tauto|].
      intros x [<-|[<-|[<-|[<-|[]]]]]; lra.
    + vm_compute. reflexivity.
    + vm_compute. reflexivity.
Qed.

Print Assumptions C55_width_double.
Print Assumptions C55_flux_scale_double.
