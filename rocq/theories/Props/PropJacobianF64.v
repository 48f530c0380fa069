(** C16: the WCS Jacobian and the residual of the inversion in double arithmetic. *)
From Coq Require Import ZArith List Bool Lia Reals Lra SpecFloat.
From Flocq Require Import Core BinarySingleNaN Plus_error.
From Coq Require Import List.
From Verif Require Import Lib.Base Lib.Floats Model.Wrap Spec.FloatSpec Spec.WrapSpec
  Proofs.BaseFacts Proofs.F64Facts Proofs.RoundSum Proofs.LanczosF64 Proofs.FwhmF64 Proofs.AffineF64
  Proofs.WrapProofs Proofs.WrapF64 Proofs.JacobianF64.
Import ListNotations.
Open Scope R_scope.

#[local] Instance Hprec : Prec_gt_0 53 := eq_refl _.
#[local] Instance Hmax : Prec_lt_emax 53 1024 := eq_refl _.
#[local] Instance fexp64_valid : Valid_exp fexp64 := fexp_correct 53 1024 _.
#[local] Instance fexp64_mono : Monotone_exp fexp64 := fexp_monotone 53 1024.

(** C16, double arithmetic: with a WCS that answers with the right sky positions up to
    [eps] degrees and any whole turns of right ascension, the Jacobian is that of the
    true differences, up to [4000 (eps + 2^-42) / s] arcseconds per pixel, for any step
    [s] from 2^-20 to 2^20 pixels. The positions are the ones the code moves to, in
    double arithmetic. [c] is what the cosine of the library gives. *)
Theorem C16_jacobian_double :
  forall (sky : f64 -> f64 -> f64 * f64) (cos : f64 -> f64) (d2r x y step : f64) (s c eps : R)
    (lon1 lat1 lon2 lat2 lon3 lat3 lon4 lat4 : R),
  f64_is step s -> bpow radix2 (-20) <= s <= bpow radix2 20 -> 0 <= eps <= 1 / 10 ->
  wcs_answers (sky (fadd x step) y) lon1 lat1 eps -> wcs_answers (sky (fsub x step) y) lon2 lat2 eps ->
  wcs_answers (sky x (fadd y step)) lon3 lat3 eps -> wcs_answers (sky x (fsub y step)) lon4 lat4 eps ->
  Rabs (lon1 - lon2) <= 179 -> Rabs (lon3 - lon4) <= 179 ->
  f64_is (cos (fmul (snd (sky x y)) d2r)) c -> Rabs c <= 1 ->
  exists n j1 j2 j3 j4 v1 v2 v3 v4,
    (forall m, (n <= m)%nat -> get_jacobian sky cos d2r m x y step = Some (j1, j2, j3, j4)) /\
    f64_is j1 v1 /\ f64_is j2 v2 /\ f64_is j3 v3 /\ f64_is j4 v4 /\
    Rabs (v1 - 1800 / s * (lon1 - lon2) * - c) <= 4000 / s * (eps + bpow radix2 (-42)) /\
    Rabs (v2 - 1800 / s * (lon3 - lon4) * - c) <= 4000 / s * (eps + bpow radix2 (-42)) /\
    Rabs (v3 - 1800 / s * (lat1 - lat2)) <= 4000 / s * (eps + bpow radix2 (-42)) /\
    Rabs (v4 - 1800 / s * (lat3 - lat4)) <= 4000 / s * (eps + bpow radix2 (-42)).
Proof. exact jacobian_double. Qed.

(** C16, double arithmetic: the Jacobian of a map that is affine up to [eps] degrees. *)
Theorem C16_jacobian_of_affine_maps_double :
  forall (sky : f64 -> f64 -> f64 * f64) (cos : f64 -> f64) (d2r x y step : f64)
    (r0 rx ry d0 dx dy vx vy s c eps P : R),
  (forall (X Y : f64) (a b : R), f64_is X a -> f64_is Y b -> Rabs a <= P -> Rabs b <= P ->
     wcs_answers (sky X Y) (r0 + rx * a + ry * b) (d0 + dx * a + dy * b) eps) ->
  Rabs rx <= 1 -> Rabs ry <= 1 -> Rabs dx <= 1 -> Rabs dy <= 1 ->
  f64_is x vx -> f64_is y vy -> f64_is step s ->
  bpow radix2 (-20) <= s <= bpow radix2 20 -> 0 <= eps <= 1 / 20 ->
  Rabs vx + s + 1 <= P -> Rabs vy + s + 1 <= P -> 1 <= P <= bpow radix2 30 ->
  Rabs (2 * rx * s) <= 179 -> Rabs (2 * ry * s) <= 179 ->
  f64_is (cos (fmul (snd (sky x y)) d2r)) c -> Rabs c <= 1 ->
  exists n j1 j2 j3 j4 v1 v2 v3 v4,
    (forall m, (n <= m)%nat -> get_jacobian sky cos d2r m x y step = Some (j1, j2, j3, j4)) /\
    f64_is j1 v1 /\ f64_is j2 v2 /\ f64_is j3 v3 /\ f64_is j4 v4 /\
    Rabs (v1 - - (3600 * rx * c)) <= 4000 / s * (eps + bpow radix2 (-53) * P + bpow radix2 (-42)) /\
    Rabs (v2 - - (3600 * ry * c)) <= 4000 / s * (eps + bpow radix2 (-53) * P + bpow radix2 (-42)) /\
    Rabs (v3 - 3600 * dx) <= 4000 / s * (eps + bpow radix2 (-53) * P + bpow radix2 (-42)) /\
    Rabs (v4 - 3600 * dy) <= 4000 / s * (eps + bpow radix2 (-53) * P + bpow radix2 (-42)).
Proof. exact jacobian_affine_double. Qed.

(** C16, double arithmetic: the residual minimised when the WCS is inverted is the
    difference to the wanted position, whatever turns the WCS adds. *)
Theorem C16_inversion_residual_double :
  forall (sky : f64 -> f64 -> f64 * f64) (x y : f64) (answer : f64 * f64) (lon lat a b eps : R),
  wcs_answers (sky x y) lon lat eps -> 0 <= eps <= 1 / 10 ->
  f64_is (fst answer) a -> f64_is (snd answer) b -> Rabs a <= 720 -> Rabs b <= 90 ->
  Rabs (lon - a) <= 179 ->
  exists n u v u' v',
    (forall m, (n <= m)%nat -> lonlatdiff sky m answer x y = Some (u, v)) /\
    f64_is u u' /\ f64_is v v' /\
    Rabs (u' - (lon - a)) <= 2 * (eps + bpow radix2 (-43)) /\
    Rabs (v' - (lat - b)) <= 2 * (eps + bpow radix2 (-43)).
Proof.
  intros sky x y answer lon lat a b eps A Re Ha Hb Sa Sb B.
  assert (A2 : wcs_answers answer a b eps).
  { exists a, b, 0%Z. repeat (split; [assumption|]). rewrite Rmult_0_r, Rplus_0_r.
    split; rewrite Rminus_diag_eq, Rabs_R0 by reflexivity; lra. }
  assert (E43 : bpow radix2 (-43) = 1024 * uro).
  { unfold uro. replace (-43)%Z with (10 + -53)%Z by lia. rewrite bpow_plus. reflexivity. }
  pose proof uro_pos as U0.
  destruct (ra_diff _ _ _ _ _ _ _ A A2 B ltac:(lra)) as (n & w & w' & L & Hw & E).
  destruct (dec_diff _ _ _ _ _ _ _ A A2 ltac:(lra)) as (z & Hz & Ez & _).
  exists n, w, (fsub (snd (sky x y)) (snd answer)), w', z. split.
  - intros m Hm. unfold lonlatdiff. destruct (sky x y) as [p q]. cbn [fst snd] in *. now rewrite (L m Hm).
  - repeat (split; [assumption|]). rewrite E43. split; lra.
Qed.

(** C16, double arithmetic: a residual of zero means the wanted declination exactly and
    the wanted right ascension up to turns and 2^-42 degrees; and the wanted position up
    to turns has a residual of zero. *)
Theorem C16_inversion_residual_zero_double :
  forall (sky : f64 -> f64 -> f64 * f64) (x y : f64) (answer : f64 * f64) (r d a b : R),
  f64_is (fst (sky x y)) r -> f64_is (snd (sky x y)) d -> f64_is (fst answer) a -> f64_is (snd answer) b ->
  Rabs r <= 720 -> Rabs a <= 720 -> Rabs d <= 90 -> Rabs b <= 90 ->
  exists n u v u' v',
    (forall m, (n <= m)%nat -> lonlatdiff sky m answer x y = Some (u, v)) /\
    f64_is u u' /\ f64_is v v' /\
    (u' = 0 /\ v' = 0 -> d = b /\ exists k : Z, Rabs (r - (a + 360 * IZR k)) <= bpow radix2 (-42)) /\
    (d = b /\ same_angle a r -> u' = 0 /\ v' = 0).
Proof.
  intros sky x y answer r d a b Hr Hd Ha Hb Sr Sa Sd Sb.
  destruct (residual_double sky x y answer r d a b Hr Hd Ha Hb Sr Sa Sd Sb) as (n & u & v & u' & v' & L & Hu & Hv & W & Ev).
  exists n, u, v, u', v'. split; [exact L|]. split; [exact Hu|]. split; [exact Hv|].
  pose proof uro_fine as U. pose proof uro_pos as U0.
  assert (E42 : bpow radix2 (-42) = 2048 * uro).
  { unfold uro. replace (-42)%Z with (11 + -53)%Z by lia. rewrite bpow_plus. reflexivity. }
  split.
  - intros [-> E0]. rewrite E0 in Ev. split.
    + assert (d + - b = 0); [|lra].
      apply (round_plus_eq_0 radix2 fexp64 ZnearestE); [exact (fmt_of _ _ Hd)|apply generic_format_opp, (fmt_of _ _ Hb)|].
      symmetry. exact Ev.
    + destruct (w_angle _ _ W) as [k Hk]. exists (- k)%Z. rewrite opp_IZR.
      assert (S1 : Rabs (r - a) <= 1440).
      { apply Rabs_le_inv in Sr. apply Rabs_le_inv in Sa. apply Rabs_le. lra. }
      pose proof (rnd_step _ _ S1) as E. assert (uro * (1440 + uro) <= 1441 * uro) by nra.
      replace (r - (a + 360 * - IZR k)) with (- (rnd (r - a) - (r - a))) by lra. rewrite Rabs_Ropp, E42. lra.
  - intros [Ed [k Hk]]. rewrite Ev, Ed. split.
    + assert (Ek : rnd (r - a) = 0 + 360 * IZR k).
      { replace (r - a) with (IZR (360 * k)) by (rewrite mult_IZR; lra).
        rewrite rnd_id; [rewrite mult_IZR; lra|].
        assert (K : (-4 <= k <= 4)%Z).
        { apply Rabs_le_inv in Sr. apply Rabs_le_inv in Sa. split.
          - apply le_IZR. change (IZR (-4)) with (-4). lra.
          - apply le_IZR. lra. }
        apply (fmt_of (fofZ (360 * k))), f64_ofZ_is. lia. }
      rewrite Ek in W. apply (wrapped_unique _ _ _ W). apply wrapped_small. rewrite Rabs_R0. lra.
    + rewrite Rminus_diag_eq by reflexivity. apply rnd_0.
Qed.

(** Concrete: a WCS of a quarter degree per pixel whose right ascensions cross zero: 0.5
    degrees and 359.5 degrees one step to either side. *)
Definition crossing (X Y : f64) : f64 * f64 :=
  let r := fmul (fdiv fone (fofZ 4) : f64) X in
  (if fltb r fzero then fadd r (fofZ 360) else r, fmul (fdiv fone (fofZ 4)) Y).
Example C16_example_double :
  wcs_answers (crossing (fadd (fofZ 0) (fofZ 2)) (fofZ 1)) (2 / 4) (1 / 4) 0 /\
  wcs_answers (crossing (fsub (fofZ 0) (fofZ 2)) (fofZ 1)) (- 2 / 4) (1 / 4) 0 /\
  wcs_answers (crossing (fofZ 0) (fadd (fofZ 1) (fofZ 2))) 0 (3 / 4) 0 /\
  wcs_answers (crossing (fofZ 0) (fsub (fofZ 1) (fofZ 2))) 0 (- 1 / 4) 0 /\
  map (@snd f64 f64) [crossing (fofZ 0) (fofZ 1)] = [fdiv fone (fofZ 4)] /\
  map (@fst f64 f64) [crossing (fsub (fofZ 0) (fofZ 2)) (fofZ 1)] = [fdiv (fofZ 719) (fofZ 2)] /\
  get_jacobian crossing (fun _ => fone) fone 3 (fofZ 0) (fofZ 1) (fofZ 2)
  = Some (fofZ (-900), fmul (fofZ 0) (fofZ (-1)), fofZ 0, fofZ 900).
Proof.
  assert (V : forall (p : f64 * f64) (a1 e1 a2 e2 : Z) lon lat k, 
    fst p = fdiv (fofZ a1) (fofZ (2 ^ e1)) -> snd p = fdiv (fofZ a2) (fofZ (2 ^ e2)) ->
    (Z.abs a1 <= 2 ^ 20)%Z -> (Z.abs a2 <= 2 ^ 20)%Z -> (0 <= e1 <= 20)%Z -> (0 <= e2 <= 20)%Z ->
    Rabs (IZR a1 / IZR (2 ^ e1)) <= 720 -> Rabs (IZR a2 / IZR (2 ^ e2)) <= 90 ->
    IZR a1 / IZR (2 ^ e1) = lon + 360 * IZR k -> IZR a2 / IZR (2 ^ e2) = lat -> wcs_answers p lon lat 0).
  { assert (D : forall a e, (Z.abs a <= 2 ^ 20)%Z -> (0 <= e <= 20)%Z -> f64_is (fdiv (fofZ a : f64) (fofZ (2 ^ e))) (IZR a / IZR (2 ^ e))).
    { intros a e Ba Be. assert (P2 : (1 <= 2 ^ e <= 2 ^ 20)%Z) by (split; [apply (Z.pow_le_mono_r 2 0); lia|apply Z.pow_le_mono_r; lia]).
      assert (PR : 1 <= IZR (2 ^ e)) by (apply IZR_le; lia).
      assert (BR : Rabs (IZR a) <= 1048576) by (rewrite <- abs_IZR; apply IZR_le; lia).
      assert (FM : generic_format radix2 fexp64 (IZR a / IZR (2 ^ e))).
      { replace (IZR a / IZR (2 ^ e)) with (F2R (Float radix2 a (- e))).
        - apply generic_format_FLT. exists (Float radix2 a (- e)); [reflexivity|cbn [Fnum]; change (radix2 ^ 53)%Z with 9007199254740992%Z; lia|cbn; lia].
        - unfold F2R. cbn [Fnum Fexp]. rewrite bpow_opp, <- IZR_Zpower by lia. reflexivity. }
      rewrite <- (rnd_id _ FM) at 1. apply div_is; [apply f64_ofZ_is; lia|apply f64_ofZ_is; lia|lra|].
      unfold Rdiv. rewrite Rabs_mult, Rabs_inv, (Rabs_pos_eq (IZR (2 ^ e))) by lra.
      pose proof big_80. assert (/ IZR (2 ^ e) <= 1) by (rewrite <- Rinv_1; apply Rinv_le; lra).
      assert (0 < / IZR (2 ^ e)) by (apply Rinv_0_lt_compat; lra). pose proof (Rabs_pos (IZR a)). nra. }
    intros p a1 e1 a2 e2 lon lat k E1 E2 B1 B2 B3 B4 S1 S2 L1 L2.
    exists (IZR a1 / IZR (2 ^ e1)), (IZR a2 / IZR (2 ^ e2)), k. rewrite E1, E2.
    split; [now apply D|]. split; [now apply D|]. split; [exact S1|]. split; [exact S2|].
    rewrite L1, L2. split; rewrite Rminus_diag_eq, Rabs_R0 by reflexivity; lra. }
  split; [|split; [|split; [|split; [|split; [|split]]]]].
  - apply (V _ 1 1 1 2 _ _ 0)%Z; try lia; try (vm_compute; reflexivity); try (apply Rabs_le); lra.
  - apply (V _ 719 1 1 2 _ _ 1)%Z; try lia; try (vm_compute; reflexivity); try (apply Rabs_le); lra.
  - apply (V _ 0 0 3 2 _ _ 0)%Z; try lia; try (vm_compute; reflexivity); try (apply Rabs_le); lra.
  - apply (V _ 0 0 (-1) 2 _ _ 0)%Z; try lia; try (vm_compute; reflexivity); try (apply Rabs_le); lra.
  - vm_compute. reflexivity.
  - vm_compute. reflexivity.
  - vm_compute. reflexivity.
Qed.

Print Assumptions C16_jacobian_double.
Print Assumptions C16_jacobian_of_affine_maps_double.
Print Assumptions C16_inversion_residual_double.
Print Assumptions C16_inversion_residual_zero_double.
