(** compute_slice_bounds in double arithmetic. *)
From Coq Require Import ZArith Reals SpecFloat Lia Lra Bool.
From Flocq Require Import Core BinarySingleNaN Relative.
From Verif Require Import Lib.Base Lib.Floats Model.SeImage Spec.SeImageSpec Proofs.F64Facts
  Proofs.SliceInputsProofs Proofs.SeImageProofs.
Open Scope Z_scope.

#[local] Instance Hprec' : Prec_gt_0 53 := eq_refl _.
#[local] Instance fexp64_valid' : Valid_exp fexp64 := fexp_correct 53 1024 _.

(** Half a unit in the last place, for numbers up to a power of two. *)
Lemma rnd_error (x : R) (k : Z) : -900 <= k <= 900 -> (Rabs x <= bpow radix2 k)%R ->
  (Rabs (rnd x - x) <= bpow radix2 (k - 53))%R.
Proof.
  intros Hk Hx.
  apply Rle_trans with (/ 2 * ulp radix2 fexp64 x)%R.
  { apply error_le_half_ulp. typeclasses eauto. }
  assert (U : (ulp radix2 fexp64 x <= ulp radix2 fexp64 (bpow radix2 k))%R).
  { apply ulp_le; [apply fexp_correct; reflexivity|apply fexp_monotone|].
    rewrite (Rabs_pos_eq (bpow radix2 k)) by apply bpow_ge_0. exact Hx. }
  rewrite ulp_bpow in U.
  assert (E : fexp64 (k + 1) = k - 52).
  { unfold SpecFloat.fexp, SpecFloat.emin. lia. }
  rewrite E in U.
  replace (k - 53) with (-1 + (k - 52)) by lia. rewrite bpow_plus.
  change (bpow radix2 (-1)) with (/ 2)%R.
  apply Rmult_le_compat_l; [lra|exact U].
Qed.

Lemma half_is : f64_is (fhalf : f64) (/ 2).
Proof.
  change (fhalf : f64) with (SFdiv 53 1024 (f64_ofZ 1) (f64_ofZ 2)).
  replace (/ 2)%R with (rnd (1 / 2)).
  - apply f64_div_is; [apply f64_ofZ_is; cbn; lia|apply f64_ofZ_is; cbn; lia|lra|].
    rewrite Rabs_pos_eq by lra. change (bpow radix2 60) with (IZR (2 ^ 60)).
    assert (IZR 1 <= IZR (2 ^ 60))%R by (apply IZR_le; lia). lra.
  - rewrite rnd_id; [lra|]. apply (half_format 1). cbn. lia.
Qed.

Definition slack : R := bpow radix2 (-20).

(** A position minus an offset plus one half. *)
Lemma offset_half_is (v u : f64) (x c : R) :
  f64_is v x -> f64_is u c -> (Rabs x <= bpow radix2 30)%R -> (Rabs c <= bpow radix2 31)%R ->
  exists y, f64_is (fadd (fsub v u) (fhalf : f64)) y /\ (Rabs (y - (x - c + / 2)) <= slack)%R.
Proof.
  intros Hv Hc Hx Cn.
  assert (B30 : bpow radix2 30 = IZR (2 ^ 30)) by reflexivity.
  assert (B31 : bpow radix2 31 = IZR (2 ^ 31)) by reflexivity.
  assert (B32 : bpow radix2 32 = IZR (2 ^ 32)) by reflexivity.
  assert (B60 : bpow radix2 60 = IZR (2 ^ 60)) by reflexivity.
  assert (K30 : (IZR (2 ^ 30) * 2 = IZR (2 ^ 31))%R) by (rewrite <- mult_IZR; reflexivity).
  assert (K32 : (IZR (2 ^ 31) * 2 = IZR (2 ^ 32))%R) by (rewrite <- mult_IZR; reflexivity).
  assert (K60 : (IZR (2 ^ 32) <= IZR (2 ^ 60))%R) by (apply IZR_le; lia).
  assert (K1 : (1 <= IZR (2 ^ 30))%R) by (apply (IZR_le 1); lia).
  rewrite B30 in Hx. rewrite B31 in Cn.
  assert (D1 : (Rabs (x - c) <= bpow radix2 32)%R).
  { rewrite B32. eapply Rle_trans; [apply Rabs_triang|]. rewrite Rabs_Ropp. lra. }
  pose proof (rnd_error (x - c) 32 ltac:(lia) D1) as E1.
  assert (S1 : bpow radix2 (32 - 53) = (bpow radix2 (-20) / 2)%R).
  { replace (32 - 53) with (-1 + -20) by lia. rewrite bpow_plus.
    change (bpow radix2 (-1)) with (/ 2)%R. field. }
  assert (S0 : (0 < bpow radix2 (-20) <= / 2)%R).
  { split; [apply bpow_gt_0|]. change (/ 2)%R with (bpow radix2 (-1)). apply bpow_le. lia. }
  assert (Hs : f64_is (SFsub 53 1024 v u) (rnd (x - c))).
  { apply f64_sub_is; [exact Hv|exact Hc|]. rewrite B60. rewrite B32 in D1. lra. }
  set (d := rnd (x - c)) in *.
  assert (D0 : (Rabs d <= Rabs (x - c) + bpow radix2 (-20) / 2)%R).
  { rewrite <- S1. replace d with ((x - c) + (d - (x - c)))%R by ring.
    eapply Rle_trans; [apply Rabs_triang|]. lra. }
  assert (D0' : (Rabs (x - c) <= 3 * IZR (2 ^ 30))%R).
  { eapply Rle_trans; [apply Rabs_triang|]. rewrite Rabs_Ropp. lra. }
  assert (D2 : (Rabs (d + / 2) <= bpow radix2 32)%R).
  { rewrite B32. eapply Rle_trans; [apply Rabs_triang|]. rewrite (Rabs_pos_eq (/ 2)) by lra. lra. }
  pose proof (rnd_error (d + / 2) 32 ltac:(lia) D2) as E2. rewrite S1 in E1, E2.
  exists (rnd (d + / 2)). split.
  { apply f64_add_is; [exact Hs|exact half_is|]. rewrite B60. rewrite B32 in D2. lra. }
  unfold slack.
  replace (rnd (d + / 2) - (x - c + / 2))%R with ((rnd (d + / 2) - (d + / 2)) + (d - (x - c)))%R by ring.
  eapply Rle_trans; [apply Rabs_triang|]. lra.
Qed.

(** The first pixel of the box in one axis. *)
Lemma start_is (v : f64) (x : R) (n : Z) :
  f64_is v x -> (Rabs x <= bpow radix2 30)%R -> Z.abs n <= 2 ^ 31 ->
  exists w y, fadd (fsub v (fdiv (fofZ (n - 1)) (fofZ 2))) (fhalf : f64) = w /\ f64_is w y /\
    (Rabs (y - (x - IZR (n - 1) / 2 + / 2)) <= slack)%R.
Proof.
  intros Hv Hx Hn.
  assert (Cn : (Rabs (IZR (n - 1) / 2) <= bpow radix2 31)%R).
  { change (bpow radix2 31) with (IZR (2 ^ 31)).
    unfold Rdiv. rewrite Rabs_mult, (Rabs_pos_eq (/ 2)) by lra. rewrite <- abs_IZR.
    assert (IZR (Z.abs (n - 1)) <= IZR (2 * 2 ^ 31))%R by (apply IZR_le; lia).
    rewrite mult_IZR in H. lra. }
  assert (Hc : f64_is (SFdiv 53 1024 (f64_ofZ (n - 1)) (f64_ofZ 2)) (IZR (n - 1) / 2)).
  { rewrite <- (rnd_id (IZR (n - 1) / 2)) by (apply half_format; lia).
    apply f64_div_is; [apply f64_ofZ_is; lia|apply f64_ofZ_is; cbn; lia|lra|].
    eapply Rle_trans; [exact Cn|]. apply bpow_le. lia. }
  destruct (offset_half_is v _ x _ Hv Hc Hx Cn) as (y & I & J).
  eexists. exists y. split; [reflexivity|]. split; [exact I|exact J].
Qed.

Lemma slice_bounds_f64 (frac col row : f64) (vf vc vr : R) (box : Z) :
  f64_is frac vf -> f64_is col vc -> f64_is row vr ->
  (Rabs (vf * IZR box) <= bpow radix2 30)%R -> Z.abs box <= 2 ^ 30 ->
  (Rabs vc <= bpow radix2 30)%R -> (Rabs vr <= bpow radix2 30)%R ->
  exists b n, compute_slice_bounds frac box col row = Ok b /\ square_of b n /\
    n mod 2 = box mod 2 /\
    (n = Ztrunc (rnd64 (vf * IZR box)) \/ n = Ztrunc (rnd64 (vf * IZR box)) + 1) /\
    (- / 2 - slack <= vr - (IZR (zrowmin b) + IZR (zrowmax b)) / 2 <= / 2 + slack)%R /\
    (- / 2 - slack <= vc - (IZR (zcolmin b) + IZR (zcolmax b)) / 2 <= / 2 + slack)%R.
Proof.
  intros Hf Hc Hr Hm Hb Bc Br.
  assert (Hp : f64_is (SFmul 53 1024 frac (f64_ofZ box)) (rnd64 (vf * IZR box))).
  { apply f64_mul_is; [exact Hf|apply f64_ofZ_is; lia|].
    eapply Rle_trans; [exact Hm|]. apply bpow_le. lia. }
  set (p := rnd64 (vf * IZR box)) in *.
  assert (Ap : (Rabs p <= bpow radix2 30)%R).
  { apply abs_round_le_generic; [typeclasses eauto..| |exact Hm].
    apply generic_format_bpow. cbn. lia. }
  pose proof (f64_trunc_is _ _ Hp) as Tp. fold p in Tp.
  set (t := Ztrunc p) in *.
  assert (At : Z.abs t <= 2 ^ 30).
  { apply le_IZR. change (IZR (2 ^ 30)) with (bpow radix2 30).
    eapply Rle_trans; [|exact Ap]. unfold t. rewrite <- Ztrunc_abs.
    rewrite Ztrunc_floor by apply Rabs_pos. apply Zfloor_lb. }
  unfold compute_slice_bounds.
  change (ftrunc (fmul frac (fofZ box))) with (f64_trunc (SFmul 53 1024 frac (f64_ofZ box))).
  rewrite Tp.
  set (n := if negb (t mod 2 =? box mod 2) then t + 1 else t).
  assert (An : Z.abs n <= 2 ^ 31) by (unfold n; destruct (negb _); lia).
  destruct (start_is row vr n Hr Br An) as (w1 & y1 & -> & I1 & J1).
  destruct (start_is col vc n Hc Bc An) as (w2 & y2 & -> & I2 & J2).
  change (ffloor w1) with (f64_floor w1). change (ffloor w2) with (f64_floor w2).
  rewrite (f64_floor_is _ _ I1), (f64_floor_is _ _ I2).
  exists (mkzb (Zfloor y1) (Zfloor y1 + n - 1) (Zfloor y2) (Zfloor y2 + n - 1)), n.
  split; [reflexivity|]. split; [split; cbn; lia|].
  split.
  { subst n. destruct (Z.eqb_spec (t mod 2) (box mod 2)) as [E|E]; cbn [negb]; [exact E|].
    pose proof (Z.mod_pos_bound t 2 ltac:(lia)). pose proof (Z.mod_pos_bound box 2 ltac:(lia)).
    rewrite Z.add_mod by lia. change (1 mod 2) with 1.
    assert (Ht : t mod 2 = 0 \/ t mod 2 = 1) by lia.
    destruct Ht as [Ht|Ht]; rewrite Ht in *; [change ((0 + 1) mod 2) with 1|change ((1 + 1) mod 2) with 0]; lia. }
  split.
  { subst n. destruct (negb _); lia. }
  cbn [zrowmin zrowmax zcolmin zcolmax].
  assert (H : forall v y : R, (Rabs (y - (v - IZR (n - 1) / 2 + / 2)) <= slack)%R ->
     (- / 2 - slack <= v - (IZR (Zfloor y) + IZR (Zfloor y + n - 1)) / 2 <= / 2 + slack)%R).
  { intros v y Hy. pose proof (Zfloor_spec y) as [A B]. apply Rabs_le_inv in Hy.
    set (k := Zfloor _) in *. rewrite !minus_IZR, !plus_IZR in *. lra. }
  split; apply H; assumption.
Qed.

(** A fraction of at least one never shrinks the box. *)
Lemma slice_bounds_f64_large (frac col row : f64) (vf vc vr : R) (box : Z) b :
  f64_is frac vf -> f64_is col vc -> f64_is row vr ->
  (Rabs (vf * IZR box) <= bpow radix2 30)%R -> 1 <= box ->
  (Rabs vc <= bpow radix2 30)%R -> (Rabs vr <= bpow radix2 30)%R -> (1 <= vf)%R ->
  compute_slice_bounds frac box col row = Ok b ->
  box <= zrowmax b - zrowmin b + 1 /\ box <= zcolmax b - zcolmin b + 1.
Proof.
  intros Hf Hc Hr Hm Hb Bc Br H1 E.
  assert (Hb1 : (1 <= IZR box)%R) by (apply (IZR_le 1); exact Hb).
  assert (Hle : (IZR box <= vf * IZR box)%R) by nra.
  assert (Hbb : Z.abs box <= 2 ^ 30).
  { apply le_IZR. change (IZR (2 ^ 30)) with (bpow radix2 30). rewrite Z.abs_eq by lia.
    eapply Rle_trans; [exact Hle|]. rewrite Rabs_pos_eq in Hm by lra. exact Hm. }
  destruct (slice_bounds_f64 frac col row vf vc vr box Hf Hc Hr Hm Hbb Bc Br)
    as (b' & n & E' & [K1 K1'] & _ & K3 & _).
  rewrite E in E'. apply Ok_inj in E' as <-. rewrite K1, K1'.
  assert (T : box <= Ztrunc (rnd64 (vf * IZR box))).
  { assert (G : (IZR box <= rnd64 (vf * IZR box))%R).
    { apply round_ge_generic; [typeclasses eauto..| |exact Hle]. apply int_format. lia. }
    rewrite Ztrunc_floor by lra. apply Zfloor_lub. exact G. }
  lia.
Qed.
