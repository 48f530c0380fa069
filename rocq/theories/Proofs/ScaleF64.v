(** Scaling of images and weights by the zero point, in double arithmetic. *)
From Coq Require Import ZArith List Lia Reals Lra SpecFloat.
From Flocq Require Import Core BinarySingleNaN.
From Verif Require Import Lib.Base Lib.Floats Spec.FloatSpec Spec.SeImageSpec Proofs.F64Facts Proofs.RoundSum.
Open Scope R_scope.

#[local] Instance Hprec : Prec_gt_0 53 := eq_refl _.
#[local] Instance Hmax : Prec_lt_emax 53 1024 := eq_refl _.
#[local] Instance fexp64_valid : Valid_exp fexp64 := fexp_correct 53 1024 _.
#[local] Instance fexp64_mono : Monotone_exp fexp64 := fexp_monotone 53 1024.

Lemma sub_is x y v w : f64_is x v -> f64_is y w -> Rabs (v - w) <= bpow radix2 1000 ->
  f64_is (SFsub 53 1024 x y) (rnd (v - w)).
Proof.
  intros Hx Hy Hb.
  apply f64_is_B in Hx as (bx & -> & Fx & <-). apply f64_is_B in Hy as (b & -> & Fy & <-).
  rewrite SFsub_equiv.
  generalize (Bminus_correct 53 1024 _ _ mode_NE bx b Fx Fy).
  rewrite Rlt_bool_true by now apply no_overflow.
  intros (H1 & H2 & _). cbn in H1. rewrite <- H1. now apply B_f64_is.
Qed.

Lemma close_zero k y : close k 0 y -> y = 0.
Proof.
  intros (t & E & H). pose proof (inv_pow_pos k). symmetry in E. apply Rmult_integral in E as [E|E]; [exact E|lra].
Qed.

Lemma close_sign k x y : close k x y -> (0 < x <-> 0 < y) /\ (x < 0 <-> y < 0).
Proof.
  intros (t & -> & H). pose proof (inv_pow_pos k) as I. assert (T : 0 < t) by lra.
  split; split; intros K; nra.
Qed.

Lemma rnd_range x lo hi : (-1000 <= lo <= 1000)%Z -> (-1000 <= hi <= 1000)%Z ->
  bpow radix2 lo <= Rabs x <= bpow radix2 hi -> bpow radix2 lo <= Rabs (rnd x) <= bpow radix2 hi.
Proof.
  intros Hl Hh H. split.
  - apply abs_round_ge_generic; [typeclasses eauto..| |apply H]. apply generic_format_bpow. unfold fexp64. cbn. lia.
  - apply abs_round_le_generic; [typeclasses eauto..| |apply H]. apply generic_format_bpow. unfold fexp64. cbn. lia.
Qed.

Lemma scaled_pixel (xi xb xw s : f64) vi vb vw sc :
  f64_is xi vi -> f64_is xb vb -> f64_is xw vw -> f64_is s sc -> ordinary_pixel (vi - vb) vw sc ->
  exists p w, f64_is (fmul (fsub xi xb) s) p /\ f64_is (fdiv xw (fmul s s)) w /\
    close 2 p ((vi - vb) * sc) /\ close 2 w (vw / (sc * sc)) /\ 0 < sc.
Proof.
  intros Hi Hb Hw Hs (Os & Ow & Osc).
  pose proof (bpow_gt_0 radix2 (-100)) as B100. pose proof (bpow_gt_0 radix2 (-300)) as B300.
  assert (S0 : 0 < sc) by lra. assert (As : Rabs sc = sc) by (apply Rabs_pos_eq; lra).
  (* image *)
  assert (D : f64_is (fsub xi xb) (rnd (vi - vb)) /\ close 1 (rnd (vi - vb)) (vi - vb)).
  { assert (Bd : Rabs (vi - vb) <= bpow radix2 300).
    { destruct Os as [->|Os]; [rewrite Rabs_R0; apply bpow_ge_0|apply Os]. }
    split.
    - apply sub_is; [exact Hi|exact Hb|]. eapply Rle_trans; [exact Bd|]. apply bpow_le. lia.
    - unfold Rminus. apply close_add_rnd; [exact (fmt_of _ _ Hi)|]. apply generic_format_opp. exact (fmt_of _ _ Hb). }
  destruct D as [D Cd].
  assert (P : exists p, f64_is (fmul (fsub xi xb) s) p /\ close 2 p ((vi - vb) * sc)).
  { destruct Os as [Z0|Os].
    - rewrite Z0 in *. rewrite rnd_0 in *. exists (rnd (0 * sc)). split.
      + apply mul_is; [exact D|exact Hs|]. rewrite Rmult_0_l, Rabs_R0. apply bpow_ge_0.
      + rewrite Rmult_0_l, rnd_0. eapply close_weaken; [|apply close_refl]. lia.
    - pose proof (rnd_range _ (-300) 300 ltac:(lia) ltac:(lia) Os) as Or.
      assert (Q : bpow radix2 (-400) <= Rabs (rnd (vi - vb) * sc) <= bpow radix2 400).
      { rewrite Rabs_mult, As. change (bpow radix2 (-400)) with (bpow radix2 (-300 + -100)).
        change (bpow radix2 400) with (bpow radix2 (300 + 100)). rewrite !bpow_plus.
        split; apply Rmult_le_compat; try lra; apply Rabs_pos. }
      exists (rnd (rnd (vi - vb) * sc)). split.
      + apply mul_is; [exact D|exact Hs|]. eapply Rle_trans; [apply Q|]. apply bpow_le. lia.
      + apply (close_trans 1 1 _ (rnd (vi - vb) * sc)).
        * apply close_rnd. eapply Rle_trans; [|apply Q]. apply bpow_le. lia.
        * apply (close_mult 1 0); [exact Cd|apply close_refl]. }
  (* weight *)
  assert (Q2 : bpow radix2 (-200) <= Rabs (sc * sc) <= bpow radix2 200).
  { rewrite Rabs_mult, As. change (bpow radix2 (-200)) with (bpow radix2 (-100 + -100)).
    change (bpow radix2 200) with (bpow radix2 (100 + 100)). rewrite !bpow_plus.
    split; apply Rmult_le_compat; lra. }
  assert (S2 : f64_is (fmul s s) (rnd (sc * sc))).
  { apply mul_is; [exact Hs|exact Hs|]. eapply Rle_trans; [apply Q2|]. apply bpow_le. lia. }
  assert (C2 : close 1 (rnd (sc * sc)) (sc * sc)).
  { apply close_rnd. eapply Rle_trans; [|apply Q2]. apply bpow_le. lia. }
  pose proof (rnd_range _ (-200) 200 ltac:(lia) ltac:(lia) Q2) as R2.
  assert (N2 : rnd (sc * sc) <> 0).
  { intros E. rewrite E, Rabs_R0 in R2. pose proof (bpow_gt_0 radix2 (-200)). lra. }
  assert (W : exists w, f64_is (fdiv xw (fmul s s)) w /\ close 2 w (vw / (sc * sc))).
  { set (s2 := rnd (sc * sc)) in *.
    destruct Ow as [Z0|Ow].
    - rewrite Z0 in *. exists (rnd (0 / s2)). split.
      + apply div_is; [exact Hw|exact S2|exact N2|]. unfold Rdiv. rewrite Rmult_0_l, Rabs_R0. apply bpow_ge_0.
      + unfold Rdiv. rewrite !Rmult_0_l, rnd_0. eapply close_weaken; [|apply close_refl]. lia.
    - assert (Q : bpow radix2 (-500) <= Rabs (vw / s2) <= bpow radix2 500).
      { unfold Rdiv. rewrite Rabs_mult, Rabs_inv.
        assert (I : bpow radix2 (-200) <= / Rabs s2 <= bpow radix2 200).
        { pose proof (bpow_gt_0 radix2 (-200)).
          change (bpow radix2 (-200)) with (bpow radix2 (- (200))). rewrite bpow_opp.
          change (bpow radix2 200) with (bpow radix2 (- (-200))) at 2. rewrite bpow_opp.
          split; apply Rinv_le; lra. }
        change (bpow radix2 (-500)) with (bpow radix2 (-300 + -200)).
        change (bpow radix2 500) with (bpow radix2 (300 + 200)). rewrite !bpow_plus.
        pose proof (bpow_gt_0 radix2 (-200)). split; apply Rmult_le_compat; try lra; apply Rabs_pos. }
      exists (rnd (vw / s2)). split.
      + apply div_is; [exact Hw|exact S2|exact N2|]. eapply Rle_trans; [apply Q|]. apply bpow_le. lia.
      + apply (close_trans 1 1 _ (vw / s2)).
        * apply close_rnd. eapply Rle_trans; [|apply Q]. apply bpow_le. lia.
        * apply (close_div 0 1); [apply close_refl|exact C2]. }
  destruct P as (p & P1 & P2). destruct W as (w & W1 & W2). exists p, w. auto.
Qed.

Lemma signal_to_noise_double (xi xb xw s : f64) vi vb vw sc :
  f64_is xi vi -> f64_is xb vb -> f64_is xw vw -> f64_is s sc -> ordinary_pixel (vi - vb) vw sc ->
  exists p w, f64_is (fmul (fsub xi xb) s) p /\ f64_is (fdiv xw (fmul s s)) w /\
    Rabs (p ^ 2 * w - (vi - vb) ^ 2 * vw) <= 6 * bpow radix2 (-52) * Rabs ((vi - vb) ^ 2 * vw) /\
    (0 < w <-> 0 < vw) /\ (w < 0 <-> vw < 0) /\ (0 < p <-> 0 < vi - vb) /\ (p < 0 <-> vi - vb < 0).
Proof.
  intros Hi Hb Hw Hs Ho.
  destruct (scaled_pixel xi xb xw s vi vb vw sc Hi Hb Hw Hs Ho) as (p & w & P & W & Cp & Cw & S0).
  exists p, w. split; [exact P|]. split; [exact W|].
  assert (C6 : close 6 (p ^ 2 * w) ((vi - vb) ^ 2 * vw)).
  { replace ((vi - vb) ^ 2 * vw) with (((vi - vb) * sc) * ((vi - vb) * sc) * (vw / (sc * sc))) by (field; lra).
    replace (p ^ 2 * w) with (p * p * w) by ring.
    apply (close_mult 4 2); [apply (close_mult 2 2); exact Cp|exact Cw]. }
  split.
  { assert (K : INR 6 * uro <= / 2).
    { replace (INR 6) with 6 by (cbn; ring). unfold uro.
      assert (bpow radix2 (-53) <= bpow radix2 (-4)) by (apply bpow_le; lia).
      replace (bpow radix2 (-4)) with (/ 16) in H by (cbn; lra). lra. }
    pose proof (close_bound 6 _ _ K C6) as Cb. replace (INR 6) with 6 in Cb by (cbn; ring). exact Cb. }
  destruct (close_sign _ _ _ Cp) as [P1 P2]. destruct (close_sign _ _ _ Cw) as [W1 W2].
  assert (Q : 0 < / (sc * sc)) by (apply Rinv_0_lt_compat; nra). unfold Rdiv in W1, W2.
  rewrite W1, W2, P1, P2. repeat split; intros K; nra.
Qed.
