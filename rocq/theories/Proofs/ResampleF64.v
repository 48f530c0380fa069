(** Resampled pixels in double arithmetic. *)
From Coq Require Import ZArith List Bool Lia Reals Lra SpecFloat.
From Flocq Require Import Core BinarySingleNaN.
From Coq Require Import List.
From Verif Require Import Lib.Base Lib.Floats Model.Lanczos Spec.FloatSpec Spec.LanczosSpec Spec.ResampleSpec
  Spec.ResampleF64Spec   Proofs.BaseFacts Proofs.F64Facts Proofs.RoundSum Proofs.LanczosProofs Proofs.LanczosF64.
Import ListNotations.
Open Scope R_scope.

#[local] Instance Hprec : Prec_gt_0 53 := eq_refl _.
#[local] Instance fexp64_ok : Valid_exp fexp64 := fexp_correct 53 1024 _.

(** A kernel sum of surface brightness times an area. *)
Lemma pixel_near (im : img f64) (area : Z -> Z -> f64) (val ar : Z -> Z -> R) (Y X BC : f64)
  (y x B M : R) (sy sx : Z) :
  f64_is Y y -> f64_is X x -> Rabs y <= 4503599627370496 -> Rabs x <= 4503599627370496 ->
  f64_is BC B -> Rabs B <= bpow radix2 90 -> 0 <= M <= bpow radix2 800 ->
  (forall r c, (0 <= r < nrows im)%Z -> (0 <= c < ncols im)%Z -> in_window 3 y r -> in_window 3 x c ->
     f64_is (px im r c) (val r c) /\ f64_is (area (c + sx)%Z (r + sy)%Z) (ar r c) /\ ar r c <> 0 /\
     Rabs (val r c / ar r c) <= M) ->
  exists v e s, lanczos_point (brightness area im sy sx) 3 Y X = Ok (v, e) /\
    window_sum (nrows im) (ncols im) 3 y x (fun r c => val r c / ar r c * kern2 3 y x (r, c)) s /\
    near (SFmul 53 1024 v BC) (s * B) (Rabs B * M * / 134217728 + (Rabs B + 1) * bpow radix2 (-990)).
Proof.
  intros HY HX By Bx HB BB HM Hp. pose proof u_val as U. pose proof eta_pos as E0. pose proof uro_pos as U0.
  assert (e1 : eta <= 1) by (apply (bpow_le radix2 (-1075) 0); lia).
  assert (b89 : bpow radix2 800 * 4 + 1 <= bpow radix2 900).
  { change 4 with (bpow radix2 2). rewrite <- bpow_plus. change 1 with (bpow radix2 0).
    assert (bpow radix2 (800 + 2) <= bpow radix2 899) by (apply bpow_le; lia).
    assert (bpow radix2 0 <= bpow radix2 899) by (apply bpow_le; lia).
    change (bpow radix2 900) with (bpow radix2 (1 + 899)). rewrite (bpow_plus radix2 1 899). change (bpow radix2 1) with 2. lra. }
  set (val1 := fun r c => rnd (val r c / ar r c)).
  set (M1 := M * (1 + uro) + eta).
  assert (E1 : forall r c, (0 <= r < nrows im)%Z -> (0 <= c < ncols im)%Z -> in_window 3 y r -> in_window 3 x c ->
     f64_is (px (brightness area im sy sx) r c) (val1 r c) /\ Rabs (val1 r c) <= M1 /\
     Rabs (val1 r c - val r c / ar r c) <= uro * M + eta).
  { intros r c Hr Hc Wr Wc. destruct (Hp r c Hr Hc Wr Wc) as (Hv & Ha & Na & Bv).
    pose proof (rnd_fine (val r c / ar r c)) as R1.
    assert (R2 : uro * Rabs (val r c / ar r c) <= uro * M) by (apply Rmult_le_compat_l; lra).
    assert (R3 : Rabs (val1 r c - val r c / ar r c) <= uro * M + eta) by (unfold val1; lra).
    split; [|split].
    - cbn [brightness px]. apply div_is; [exact Hv|exact Ha|exact Na|].
      assert (bpow radix2 800 <= bpow radix2 1000) by (apply bpow_le; lia). lra.
    - pose proof (abs_near _ _ _ R3). unfold M1. lra.
    - exact R3. }
  assert (M1b : 0 <= M1 <= bpow radix2 900).
  { assert (0 <= M * uro <= M) by (rewrite U; lra). unfold M1. lra. }
  destruct (point_near (brightness area im sy sx) val1 3 Y X y x M1) as (v & e & S1 & Ep & W & (w & Hw & Ew));
    [lia|exact HY|exact HX|exact By|exact Bx|exact M1b| |].
  { intros r c Hr Hc Wr Wc. destruct (E1 r c Hr Hc Wr Wc) as (K1 & K2 & _). auto. }
  cbn [brightness nrows ncols] in W. destruct W as (ps & Nd & Hps & ES).
  set (g := fun p : Z * Z => val (fst p) (snd p) / ar (fst p) (snd p) * kern2 3 y x (fst p, snd p)).
  set (s := RoundSum.rsum (map g ps)).
  exists v, e, s. split; [exact Ep|]. split.
  { exists ps. split; [exact Nd|]. split; [exact Hps|]. unfold s. rewrite rsum_same. reflexivity. }
  assert (Lp : INR (length ps) <= 36).
  { assert (L : (length ps <= length (window_pix (nrows im) (ncols im) (Zfloor y) (Zfloor x) 3))%nat).
    { apply NoDup_incl_length; [exact Nd|]. intros [r c] Hin. apply window_pix_spec, Hps, Hin. }
    pose proof (window_len (nrows im) (ncols im) (Zfloor y) (Zfloor x) 3 ltac:(lia)) as L'.
    change 36 with (IZR (Z.of_nat 36)). rewrite <- INR_IZR_INZ. apply le_INR. lia. }
  assert (Kb : forall p, In p ps -> Rabs (kern2 3 y x p) <= 3 / 2).
  { intros [r c] Hin. apply Hps in Hin as (_ & _ & Wr & Wc).
    apply (kern2_near 3 Y X y x r c ltac:(lia) HY HX By Bx Wr Wc). }
  set (f := fun p : Z * Z => val1 (fst p) (snd p) * kern2 3 y x (fst p, snd p)).
  assert (ES' : S1 = RoundSum.rsum (map f ps)) by (rewrite rsum_same; exact ES).
  assert (D : Rabs (S1 - s) <= INR (length ps) * ((uro * M + eta) * (3 / 2))).
  { rewrite ES'. unfold s. apply rsum_diff. intros [r c] Hin. pose proof (Kb _ Hin) as Kr.
    apply Hps in Hin as (Hr & Hc & Wr & Wc). destruct (E1 r c Hr Hc Wr Wc) as (_ & _ & K3).
    unfold f, g. cbn [fst snd]. rewrite <- Rmult_minus_distr_r, Rabs_mult.
    apply Rmult_le_compat; auto using Rabs_pos. }
  assert (U2 : 0 <= uro * M) by (apply Rmult_le_pos; lra).
  assert (D' : Rabs (S1 - s) <= 54 * (uro * M + eta)).
  { eapply Rle_trans; [exact D|].
    apply Rle_trans with (36 * ((uro * M + eta) * (3 / 2))); [apply Rmult_le_compat_r; lra|lra]. }
  assert (Sb : Rabs s <= 54 * M).
  { assert (A : asum (map g ps) <= INR (length (map g ps)) * (M * (3 / 2))).
    { apply asum_bound; [lra|]. apply Forall_forall. intros t Ht. apply in_map_iff in Ht as ([r c] & <- & Hin).
      pose proof (Kb _ Hin) as Kr. apply Hps in Hin as (Hr & Hc & Wr & Wc).
      destruct (Hp r c Hr Hc Wr Wc) as (_ & _ & _ & Bv). unfold g. cbn [fst snd]. rewrite Rabs_mult.
      apply Rmult_le_compat; auto using Rabs_pos. }
    pose proof (rsum_le_asum (map g ps)) as Q. fold s in Q. rewrite map_length in A.
    assert (INR (length ps) * (M * (3 / 2)) <= 36 * (M * (3 / 2))) by (apply Rmult_le_compat_r; lra). lra. }
  set (T := bpow radix2 (-1000)) in *.
  assert (T0 : 0 < T) by apply bpow_gt_0.
  assert (eT : 1000 * eta <= T).
  { apply Rle_trans with (1024 * eta); [lra|]. unfold T, eta. change 1024 with (bpow radix2 10).
    rewrite <- bpow_plus. apply bpow_le. lia. }
  assert (TT : 1024 * T <= bpow radix2 (-990)).
  { right. unfold T. change 1024 with (bpow radix2 10). rewrite <- bpow_plus. f_equal. }
  assert (EwS : Rabs (w - s) <= M * / 200000000 + 2 * T).
  { replace (w - s) with ((w - S1) + (S1 - s)) by ring. eapply Rle_trans; [apply Rabs_triang|].
    unfold M1 in *. rewrite U in *. lra. }
  pose proof (Rabs_pos B) as B0.
  assert (Wb : Rabs w <= 55 * M + 2 * T).
  { pose proof (abs_near _ _ _ EwS). lra. }
  assert (T1 : T <= 1) by (apply (bpow_le radix2 (-1000) 0); lia).
  assert (WB : Rabs (w * B) <= (55 * M + 2 * T) * Rabs B).
  { rewrite Rabs_mult. apply Rmult_le_compat_r; lra. }
  exists (rnd (w * B)). split.
  - apply mul_is; [exact Hw|exact HB|]. eapply Rle_trans; [exact WB|].
    apply Rle_trans with (bpow radix2 900 * bpow radix2 90).
    + apply Rmult_le_compat; [lra|lra| |exact BB].
      assert (bpow radix2 800 * 64 + 2 <= bpow radix2 900); [|lra].
      change 64 with (bpow radix2 6). rewrite <- bpow_plus. change 2 with (bpow radix2 1).
      assert (bpow radix2 (800 + 6) <= bpow radix2 899) by (apply bpow_le; lia).
      assert (bpow radix2 1 <= bpow radix2 899) by (apply bpow_le; lia).
      change (bpow radix2 900) with (bpow radix2 (1 + 899)). rewrite (bpow_plus radix2 1 899). change (bpow radix2 1) with 2 in *. lra.
    + rewrite <- bpow_plus. apply bpow_le. lia.
  - replace (rnd (w * B) - s * B) with ((rnd (w * B) - w * B) + (w - s) * B) by ring.
    eapply Rle_trans; [apply Rabs_triang|]. rewrite Rabs_mult.
    pose proof (rnd_fine (w * B)) as R1.
    assert (R2 : uro * Rabs (w * B) <= uro * ((55 * M + 2 * T) * Rabs B)) by (apply Rmult_le_compat_l; lra).
    assert (R3 : Rabs (w - s) * Rabs B <= (M * / 200000000 + 2 * T) * Rabs B) by (apply Rmult_le_compat_r; lra).
    assert (MB : 0 <= M * Rabs B) by (apply Rmult_le_pos; lra).
    assert (TB : 0 <= T * Rabs B) by (apply Rmult_le_pos; lra).
    assert (R4 : (Rabs B + 1) * (1024 * T) <= (Rabs B + 1) * bpow radix2 (-990)) by (apply Rmult_le_compat_l; lra).
    replace (uro * ((55 * M + 2 * T) * Rabs B)) with (55 * uro * (M * Rabs B) + 2 * uro * (T * Rabs B)) in R2 by ring.
    replace ((M * / 200000000 + 2 * T) * Rabs B) with (/ 200000000 * (M * Rabs B) + 2 * (T * Rabs B)) in R3 by ring.
    replace ((Rabs B + 1) * (1024 * T)) with (1024 * (T * Rabs B) + 1024 * T) in R4 by ring.
    replace (Rabs B * M * / 134217728) with (/ 134217728 * (M * Rabs B)) by ring.
    rewrite U in *. lra.
Qed.

Lemma falls_position to_se y0 x0 sy sx r c row col : falls_at to_se y0 x0 sy sx r c row col ->
  f64_is (fst (position to_se y0 x0 sy sx r c)) row /\ f64_is (snd (position to_se y0 x0 sy sx r c)) col /\
  (Rabs row <= 4503599627370496)%R /\ (Rabs col <= 4503599627370496)%R.
Proof.
  intros (y & x & Hy & Hx & -> & -> & By & Bx & Sy & Sx).
  assert (G : forall v s, (Rabs (v - IZR s) <= 2 ^ 52)%R ->
              (Rabs (rnd64 (v - IZR s)) <= 4503599627370496)%R).
  { intros v s H. apply abs_round_le_generic; [typeclasses eauto..| |lra].
    apply (int_format 4503599627370496). cbn. lia. }
  assert (K : forall V v s, f64_is V v -> (Rabs (v - IZR s) <= 2 ^ 52)%R -> (Z.abs s <= 2 ^ 53)%Z ->
              f64_is (SFsub 53 1024 V (f64_ofZ s)) (rnd64 (v - IZR s))).
  { intros V v s HV B S. apply sub_is; [exact HV|apply f64_ofZ_is, S|].
    eapply Rle_trans; [exact B|]. eapply Rle_trans; [|apply big_1000]. lra. }
  split; [apply K; assumption|]. split; [apply K; assumption|]. split; apply G; assumption.
Qed.
