(** Pixel lookups in double arithmetic. *)
From Coq Require Import ZArith Reals SpecFloat Lia Lra Bool.
From Flocq Require Import Core.
From Verif Require Import Lib.Base Lib.Floats Model.SeImage Model.Resample Spec.ResampleSpec
  Proofs.F64Facts Proofs.SeImageProofs Proofs.SliceBoundsF64 Proofs.ResampleProofs.
Open Scope Z_scope.

Lemma start_ofZ (s : Z) : Z.abs s <= 2 ^ 30 ->
  f64_is (f64_ofZ s) (IZR s) /\ (Rabs (IZR s) <= bpow radix2 31)%R.
Proof.
  intros H. split; [apply f64_ofZ_is; lia|].
  change (bpow radix2 31) with (IZR (2 ^ 31)). rewrite <- abs_IZR. apply IZR_le. lia.
Qed.

Lemma small_int (y x : R) (s : Z) : (Rabs x <= bpow radix2 30)%R -> Z.abs s <= 2 ^ 30 ->
  (Rabs (y - (x - IZR s + / 2)) <= slack)%R -> (-IZR (2 ^ 33) <= y <= IZR (2 ^ 33))%R.
Proof.
  intros Hx Hs Hy.
  assert (S0 : (0 < slack <= / 2)%R).
  { unfold slack. split; [apply bpow_gt_0|]. change (/ 2)%R with (bpow radix2 (-1)). apply bpow_le. lia. }
  assert (Hs' : (Rabs (IZR s) <= IZR (2 ^ 30))%R) by (rewrite <- abs_IZR; apply IZR_le; lia).
  assert (K : (IZR (2 ^ 33) = 8 * IZR (2 ^ 30))%R) by (rewrite <- mult_IZR; reflexivity).
  assert (K1 : (1 <= IZR (2 ^ 30))%R) by (apply (IZR_le 1); lia).
  change (bpow radix2 30) with (IZR (2 ^ 30)) in Hx.
  apply Rabs_le_inv in Hx, Hs', Hy. lra.
Qed.

(** Rounding down. *)
Lemma floor_index_f64 (v : f64) (x : R) (s : Z) :
  f64_is v x -> (Rabs x <= bpow radix2 30)%R -> Z.abs s <= 2 ^ 30 ->
  (Rabs (x - IZR s - IZR (int64_of (ffloor (fadd (fsub v (fofZ s)) (fhalf : f64))))) <= / 2 + slack)%R.
Proof.
  intros Hv Hx Hs. destruct (start_ofZ s Hs) as [Is Bs].
  destruct (offset_half_is v (f64_ofZ s) x (IZR s) Hv Is Hx Bs) as (y & I & J).
  change (fofZ s) with (f64_ofZ s).
  change (ffloor (fadd (fsub v (f64_ofZ s)) (fhalf : f64)))
    with (f64_floor (fadd (fsub v (f64_ofZ s)) (fhalf : f64))).
  rewrite (f64_floor_is _ _ I).
  destruct (small_int y x s Hx Hs J) as [L U].
  pose proof (Zfloor_spec y) as [A B].
  assert (F1 : - 2 ^ 33 <= Zfloor y).
  { apply Zfloor_lub. rewrite opp_IZR. exact L. }
  assert (F2 : Zfloor y <= 2 ^ 33) by (apply le_IZR; lra).
  rewrite int64_ok by lia. apply Rabs_le_inv in J. apply Rabs_le. lra.
Qed.

(** Rounding towards zero, for positions that are not below the first pixel. *)
Lemma trunc_index_f64 (v : f64) (x : R) (s : Z) :
  f64_is v x -> (Rabs x <= bpow radix2 30)%R -> Z.abs s <= 2 ^ 30 -> (- / 2 <= x - IZR s)%R ->
  (Rabs (x - IZR s - IZR (mask_index (fsub v (fofZ s)))) <= / 2 + slack)%R.
Proof.
  intros Hv Hx Hs Hp. destruct (start_ofZ s Hs) as [Is Bs].
  destruct (offset_half_is v (f64_ofZ s) x (IZR s) Hv Is Hx Bs) as (y & I & J).
  unfold mask_index. change (fofZ s) with (f64_ofZ s).
  change (ftrunc (fadd (fsub v (f64_ofZ s)) (fhalf : f64)))
    with (f64_trunc (fadd (fsub v (f64_ofZ s)) (fhalf : f64))).
  rewrite (f64_trunc_is _ _ I).
  destruct (small_int y x s Hx Hs J) as [L U].
  assert (S0 : (0 < slack <= / 2)%R).
  { unfold slack. split; [apply bpow_gt_0|]. change (/ 2)%R with (bpow radix2 (-1)). apply bpow_le. lia. }
  apply Rabs_le_inv in J.
  destruct (Rle_or_lt 0 y) as [P|P].
  - rewrite Ztrunc_floor by exact P. pose proof (Zfloor_spec y) as [A B].
    assert (F1 : 0 <= Zfloor y) by (apply Zfloor_lub; exact P).
    assert (F2 : Zfloor y <= 2 ^ 33) by (apply le_IZR; lra).
    rewrite int64_ok by lia. apply Rabs_le. lra.
  - assert (T : Ztrunc y = 0).
    { rewrite Ztrunc_ceil by lra. apply Zceil_imp. cbn. lra. }
    rewrite T. rewrite int64_ok by lia. apply Rabs_le. lra.
Qed.
