(** C15, C16: right ascension differences and the WCS Jacobian. *)
From Coq Require Import ZArith List Bool Reals Lia Lra.
From Flocq Require Import Core.
From Verif Require Import Lib.Base Lib.Floats Model.Wrap Spec.WrapSpec Spec.FloatSpec
  Proofs.WrapProofs Proofs.WrapF64.
Import ListNotations.
Open Scope R_scope.

(** C15, exact arithmetic: the loops stop, and exactly with the wrapped angle. *)
Theorem C15_wrapped_exact_arithmetic :
  forall x : R,
  (exists fuel y, wrap_ra_diff fuel x = Some y) /\
  (forall fuel y, wrap_ra_diff fuel x = Some y -> wrapped x y).
Proof.
  intros x. destruct (wrap_exact x) as (n & y & Hy & Hw). split; [eauto|].
  intros m z Hz. apply wrap_exact_iff. eauto.
Qed.

(** C15: [wrapped] determines its second argument. *)
Theorem C15_wrapped_is_functional :
  forall x y z : R, wrapped x y -> wrapped x z -> y = z.
Proof. exact wrapped_unique. Qed.

(** C15, double arithmetic: termination. *)
Theorem C15_double_terminates_iff :
  forall (x : f64) (v : R), f64_is x v ->
  ((exists fuel y, wrap_ra_diff fuel x = Some y) <-> Rabs v <= IZR (2 ^ 62)).
Proof.
  intros x v Hx. change (IZR (2 ^ 62)) with (bpow radix2 62). split.
  - intros (n & y & Hy). destruct (Rle_or_lt (Rabs v) (bpow radix2 62)) as [H|H]; [exact H|].
    rewrite (wrap_f64_diverges x v n Hx H) in Hy. discriminate.
  - intros H. eapply wrap_f64_terminates; eassumption.
Qed.

(** C15, double arithmetic: the result is always in range. *)
Theorem C15_double_range :
  forall (x y : f64) (v : R) (fuel : nat), f64_is x v -> wrap_ra_diff fuel x = Some y ->
  exists w, f64_is y w /\ -180 <= w <= 180.
Proof. intros x y v fuel. apply wrap_f64_range. Qed.

(** C15, double arithmetic: no rounding error up to 2^56. *)
Theorem C15_double_exact :
  forall (x y : f64) (v : R) (fuel : nat), f64_is x v -> Rabs v <= IZR (2 ^ 56) ->
  wrap_ra_diff fuel x = Some y -> exists w, f64_is y w /\ wrapped v w.
Proof.
  intros x y v n Hx Hb Hy. pose proof (wrap_f64_exact x v n Hx Hb) as H. rewrite Hy in H.
  destruct (wrap_ra_diff n v) as [w|] eqn:E; [|contradiction].
  exists w. split; [assumption|]. apply wrap_exact_iff. eauto.
Qed.

(** C15: infinities and NaN are returned as they are. *)
Theorem C15_nonfinite_unchanged :
  forall (F : Type) (FO : FloatOps F) (fuel : nat) (x : F),
  ffinite x = false -> wrap_ra_diff fuel x = Some x.
Proof. intros F FO. exact wrap_nonfinite. Qed.

(** C15: arrays are wrapped element by element, in any arithmetic. *)
Theorem C15_arrays_elementwise :
  forall (F : Type) (FO : FloatOps F) (fuel : nat) (l l' : list F),
  wrap_ra_diff_array fuel l = Some l' <->
  Forall2 (fun x y => wrap_ra_diff fuel x = Some y) l l'.
Proof. intros F FO. exact wrap_array_elements. Qed.

(** Concrete: 350 degrees become -10; -180 and 180 stay; 540 becomes 180. *)
Example C15_example :
  map (fun z => wrap_ra_diff 3 (f64_ofZ z)) [350; -180; 180; 540; -540; -181]%Z
  = map (fun z => Some (f64_ofZ z)) [-10; -180; 180; 180; -180; 179]%Z.
Proof. vm_compute. reflexivity. Qed.

(** Concrete: 2^63 is a double to which the divergence applies. *)
Example C15_divergence_example :
  f64_is (f64_ofZ (2 ^ 63)) (IZR (2 ^ 63)) /\ ~ Rabs (IZR (2 ^ 63)) <= IZR (2 ^ 62).
Proof.
  split.
  - split; [reflexivity|]. split; [reflexivity|].
    change (f64_ofZ (2 ^ 63)) with (SpecFloat.S754_finite false 4503599627370496 11).
    unfold f64_val. cbn. unfold Defs.F2R. cbn. rewrite <- mult_IZR. reflexivity.
  - rewrite Rabs_pos_eq by (apply IZR_le; lia). intros H. apply le_IZR in H. lia.
Qed.

(** C16: the result only depends on the true differences. [branch] is the
    number of turns that the WCS adds at each position. *)
Theorem C16_jacobian_ignores_branch :
  forall (ra dec : R -> R -> R) (branch : R -> R -> Z) (cos : R -> R) (d2r x y step : R),
  step <> 0 ->
  Rabs (ra (x + step) y - ra (x - step) y) < 180 ->
  Rabs (ra x (y + step) - ra x (y - step)) < 180 ->
  exists n, forall m, (n <= m)%nat ->
    get_jacobian (fun a b => (ra a b + 360 * IZR (branch a b), dec a b)) cos d2r m x y step
    = Some ((1 / (2 * step) * 3600 * (ra (x + step) y - ra (x - step) y)) * - cos (dec x y * d2r),
            (1 / (2 * step) * 3600 * (ra x (y + step) - ra x (y - step))) * - cos (dec x y * d2r),
            1 / (2 * step) * 3600 * (dec (x + step) y - dec (x - step) y),
            1 / (2 * step) * 3600 * (dec x (y + step) - dec x (y - step))).
Proof. intros ra dec branch cos d2r x y step _. apply jacobian_branch. Qed.

(** C16: exact for affine maps (in degrees per pixel; arcsec out). *)
Theorem C16_jacobian_exact_for_affine_maps :
  forall (r0 rx ry d0 dx dy : R) (branch : R -> R -> Z) (cos : R -> R) (d2r x y step : R),
  step <> 0 -> Rabs (2 * rx * step) < 180 -> Rabs (2 * ry * step) < 180 ->
  exists n, forall m, (n <= m)%nat ->
    get_jacobian (fun a b => (r0 + rx * a + ry * b + 360 * IZR (branch a b), d0 + dx * a + dy * b))
      cos d2r m x y step
    = Some (- (3600 * rx * cos ((d0 + dx * x + dy * y) * d2r)),
            - (3600 * ry * cos ((d0 + dx * x + dy * y) * d2r)),
            3600 * dx, 3600 * dy).
Proof.
  intros r0 rx ry d0 dx dy branch cos d2r x y step Hs H1 H2.
  destruct (jacobian_branch (fun a b => r0 + rx * a + ry * b) (fun a b => d0 + dx * a + dy * b)
    branch cos d2r x y step) as [n Hn].
  - replace (r0 + rx * (x + step) + ry * y - (r0 + rx * (x - step) + ry * y)) with (2 * rx * step) by ring.
    assumption.
  - replace (r0 + rx * x + ry * (y + step) - (r0 + rx * x + ry * (y - step))) with (2 * ry * step) by ring.
    assumption.
  - exists n. intros m Hm. rewrite (Hn m Hm). f_equal.
    repeat match goal with |- (_, _) = (_, _) => f_equal end; field; assumption.
Qed.

(** C16: the residual used to invert the WCS also ignores the branch, and
    vanishes exactly on the wanted position. *)
Theorem C16_inversion_residual_ignores_branch :
  forall (lon lat : R) (answer : R * R) (k : Z) (sky : R -> R -> R * R) (x y : R),
  sky x y = (lon + 360 * IZR k, lat) -> Rabs (lon - fst answer) < 180 ->
  exists n, forall m, (n <= m)%nat ->
    lonlatdiff sky m answer x y = Some (lon - fst answer, lat - snd answer).
Proof. exact lonlat_branch. Qed.

Theorem C16_inversion_residual_zero_iff :
  forall (lon lat : R) (answer : R * R) (sky : R -> R -> R * R) (x y : R) (n : nat) (d : R * R),
  sky x y = (lon, lat) -> lonlatdiff sky n answer x y = Some d ->
  (d = (0, 0) <-> same_angle (fst answer) lon /\ lat = snd answer).
Proof. exact lonlat_zero. Qed.

(** Concrete: a map crossing RA = 0; the difference of one pixel is 1 degree
    although the raw right ascensions are 0.5 and 359.5. *)
Example C16_example :
  Rabs (2 * (1 / 2) * 1) < 180 /\ Rabs (2 * 0 * 1) < 180 /\ (1 : R) <> 0.
Proof. repeat split; try (rewrite Rabs_pos_eq; lra); lra. Qed.

Print Assumptions C15_wrapped_exact_arithmetic.
Print Assumptions C15_wrapped_is_functional.
Print Assumptions C15_double_terminates_iff.
Print Assumptions C15_double_range.
Print Assumptions C15_double_exact.
Print Assumptions C15_nonfinite_unchanged.
Print Assumptions C15_arrays_elementwise.
Print Assumptions C16_jacobian_ignores_branch.
Print Assumptions C16_jacobian_exact_for_affine_maps.
Print Assumptions C16_inversion_residual_ignores_branch.
Print Assumptions C16_inversion_residual_zero_iff.
