(** The variance in double arithmetic. *)
From Coq Require Import ZArith List Lia Reals Lra SpecFloat.
From Flocq Require Import Core BinarySingleNaN.
From Coq Require Import List.
From Verif Require Import Lib.Base Lib.Floats Spec.FloatSpec Spec.CoaddSpec
  Proofs.F64Facts Proofs.RoundSum Proofs.BaseFacts Proofs.CoaddF64 Proofs.ScaleF64.
Import ListNotations.
Open Scope R_scope.

#[local] Instance Hprec : Prec_gt_0 53 := eq_refl _.
#[local] Instance Hmax : Prec_lt_emax 53 1024 := eq_refl _.
#[local] Instance fexp64_valid : Valid_exp fexp64 := fexp_correct 53 1024 _.
#[local] Instance fexp64_mono : Monotone_exp fexp64 := fexp_monotone 53 1024.

(** Squared deviations from any value. *)
Lemma deviations l a m :
  total (map (fun x => (x - a) ^ 2) l) =
  total (map (fun x => (x - m) ^ 2) l) + 2 * (m - a) * (total l - INR (length l) * m) + INR (length l) * (m - a) ^ 2.
Proof.
  induction l as [|x l IH]; [cbn; ring|].
  cbn [map]. change (total (?a :: ?b)) with (a + total b). cbn [length]. rewrite S_INR, IH. ring.
Qed.

Lemma spread_about l a : l <> [] ->
  total (map (fun x => (x - a) ^ 2) l) = INR (length l) * (spread l + (total l / INR (length l) - a) ^ 2).
Proof.
  intros Hl. assert (N : INR (length l) <> 0) by (apply not_0_INR; destruct l; [congruence|discriminate]).
  rewrite (deviations l a (total l / INR (length l))). unfold spread. field. exact N.
Qed.

Lemma total_of_nonneg l : Forall (fun x => 0 <= x) l -> 0 <= total l.
Proof. induction 1; cbn; [lra|]. change (fold_right Rplus 0 l) with (total l). lra. Qed.

Lemma spread_nonneg l : l <> [] -> 0 <= spread l.
Proof.
  intros Hl. assert (N : 0 < INR (length l)) by (apply lt_0_INR; destruct l; [congruence|cbn; lia]).
  unfold spread. apply Rmult_le_pos; [|left; now apply Rinv_0_lt_compat].
  apply total_of_nonneg. apply Forall_map, Forall_forall. intros x _. apply pow2_ge_0.
Qed.

(** One squared deviation. *)
Lemma square_is (x a : f64) v m : f64_is x v -> f64_is a m -> Rabs v <= bpow radix2 200 -> Rabs m <= bpow radix2 201 ->
  exists q t h, f64_is (fmul (fsub x a) (fsub x a)) q /\ q = (v - m) ^ 2 * t + h /\ 0 <= q <= bpow radix2 410 /\
    / (1 + uro) ^ 3 <= t <= (1 + uro) ^ 3 /\ Rabs h <= bpow radix2 (-1075).
Proof.
  intros Hx Ha Bv Bm.
  assert (T : Rabs (v - m) <= bpow radix2 202).
  { unfold Rminus. eapply Rle_trans; [apply Rabs_triang|]. rewrite Rabs_Ropp.
    assert (bpow radix2 200 <= bpow radix2 201) by (apply bpow_le; lia).
    change (bpow radix2 202) with (bpow radix2 (1 + 201)). rewrite bpow_plus. change (bpow radix2 1) with 2. lra. }
  assert (Hs : f64_is (fsub x a) (rnd (v - m))).
  { apply sub_is; [exact Hx|exact Ha|]. eapply Rle_trans; [exact T|]. apply bpow_le. lia. }
  assert (C : close 1 (rnd (v - m)) (v - m)).
  { assert (Ho : generic_format radix2 fexp64 (- m)) by (apply generic_format_opp; exact (fmt_of _ _ Ha)).
    exact (close_add_rnd v (- m) (fmt_of _ _ Hx) Ho). }
  set (d := rnd (v - m)) in *.
  assert (Bd : Rabs d <= bpow radix2 203).
  { destruct C as (t & -> & Ht). rewrite Rabs_mult, pow_1 in *.
    pose proof (inv_pow_pos 1) as I. rewrite pow_1 in I.
    rewrite (Rabs_pos_eq t) by lra. change (bpow radix2 203) with (bpow radix2 (202 + 1)). rewrite bpow_plus.
    apply Rmult_le_compat; [apply Rabs_pos|lra|exact T|]. change (bpow radix2 1) with 2.
    assert (uro <= 1) by (change 1 with (bpow radix2 0); apply bpow_le; lia). lra. }
  assert (Bq : d * d <= bpow radix2 406).
  { rewrite <- (Rabs_pos_eq (d * d)) by apply Rle_0_sqr. rewrite Rabs_mult.
    change (bpow radix2 406) with (bpow radix2 (203 + 203)). rewrite bpow_plus.
    apply Rmult_le_compat; try apply Rabs_pos; exact Bd. }
  pose proof (Rle_0_sqr d) as Sq. unfold Rsqr in Sq.
  destruct (rnd_error_gen (d * d)) as (e & h & He & Hh & E).
  destruct C as (t & Et & Ht).
  exists (rnd (d * d)), (t * t * (1 + e)), h.
  split. { apply mul_is; [exact Hs|exact Hs|]. rewrite Rabs_pos_eq by exact Sq. eapply Rle_trans; [exact Bq|]. apply bpow_le. lia. }
  split. { rewrite E, Et. ring. }
  split.
  { split.
    - rewrite <- rnd_0. apply round_le; [typeclasses eauto..|exact Sq].
    - apply Rle_trans with (rnd (bpow radix2 406)); [apply round_le; [typeclasses eauto..|exact Bq]|].
      assert (G : generic_format radix2 fexp64 (bpow radix2 406)) by (apply generic_format_bpow; cbn; lia).
      unfold rnd64. rewrite round_generic by (exact G || typeclasses eauto). apply bpow_le. lia. }
  split; [|exact Hh].
  pose proof (close_1 e He) as C1. rewrite !pow_1 in *.
  pose proof uro_pos as U. assert (I : 0 < / (1 + uro)) by (apply Rinv_0_lt_compat; lra).
  assert (E3 : / (1 + uro) ^ 3 = / (1 + uro) * / (1 + uro) * / (1 + uro)) by (field; lra).
  rewrite E3. cbn [pow]. rewrite Rmult_1_r. split.
  - apply Rmult_le_compat; [apply Rmult_le_pos; lra|lra| |lra]. apply Rmult_le_compat; lra.
  - rewrite <- Rmult_assoc. apply Rmult_le_compat; [apply Rmult_le_pos; lra|lra| |lra]. apply Rmult_le_compat; lra.
Qed.

Lemma squares_are (xs : list f64) vs a m : Forall2 f64_is xs vs -> f64_is a m ->
  Forall (fun x => Rabs x <= bpow radix2 200) vs -> Rabs m <= bpow radix2 201 ->
  exists qs, Forall2 f64_is (map (fun x => fmul (fsub x a) (fsub x a)) xs) qs /\
    Forall (fun q => 0 <= q <= bpow radix2 410) qs /\
    exists p, close 3 p (total (map (fun x => (x - m) ^ 2) vs)) /\
      Rabs (total qs - p) <= INR (length vs) * bpow radix2 (-1075).
Proof.
  intros H Ha HB Bm. revert HB. induction H as [|x v xs vs Hx _ IH]; intros HB.
  - exists []. split; [constructor|]. split; [constructor|]. exists 0. split; [exists 1|].
    + cbn. pose proof uro_pos. split; [ring|]. split; [|nra].
      rewrite <- Rinv_1. apply Rinv_le; nra.
    + cbn. rewrite Rminus_0_r, Rabs_R0. lra.
  - inversion HB as [|? ? B1 B2]; subst. destruct (IH B2) as (qs & Q1 & Q2 & p & C & Hp).
    destruct (square_is x a v m Hx Ha B1 Bm) as (q & t & h & S1 & S2 & S3 & S4 & S5).
    exists (q :: qs). split; [constructor; assumption|]. split; [constructor; assumption|].
    exists ((v - m) ^ 2 * t + p). cbn [map length]. rewrite S_INR.
    change (total (?a :: ?b)) with (a + total b). split.
    + apply close_plus; [apply pow2_ge_0| | |exact C].
      * apply total_of_nonneg, Forall_map, Forall_forall. intros z _. apply pow2_ge_0.
      * exists t. split; [reflexivity|exact S4].
    + replace (q + total qs - ((v - m) ^ 2 * t + p)) with (h + (total qs - p)) by (rewrite S2; ring).
      eapply Rle_trans; [apply Rabs_triang|]. lra.
Qed.

Lemma close_more k p q D e : 0 < D -> close k p D -> Rabs (q - p) <= e * D -> INR k * uro <= / 4 ->
  0 <= e -> e <= uro / 8 -> close (k + 1) q D.
Proof.
  intros HD (t & -> & Ht) Hq Hk He Hu. exists (q / D). split; [field; lra|].
  assert (X : Rabs (q / D - t) <= e).
  { replace (q / D - t) with ((q - D * t) / D) by (field; lra). unfold Rdiv. rewrite Rabs_mult, Rabs_inv.
    rewrite (Rabs_pos_eq D) by lra. apply Rmult_le_reg_r with D; [exact HD|].
    rewrite Rmult_assoc, Rinv_l by lra. lra. }
  apply Rabs_le_inv in X. pose proof uro_pos as U.
  assert (U1 : uro <= / 2) by (change (/ 2) with (bpow radix2 (-1)); apply bpow_le; lia).
  pose proof (inv_pow_bound k ltac:(lra)) as I. pose proof (pow_ge_1 k) as P.
  rewrite pow_add, pow_1, Rinv_mult.
  assert (J : / (1 + uro) = 1 - uro / (1 + uro)) by (field; lra).
  assert (J2 : uro / 2 <= uro / (1 + uro)).
  { unfold Rdiv. apply Rmult_le_compat_l; [lra|]. apply Rinv_le; lra. }
  split.
  - rewrite J. assert (/ 2 <= / (1 + uro) ^ k) by lra. nra.
  - nra.
Qed.

Lemma inverse_spread_is (xs : list f64) : inverse_spread xs (fdiv fone (squared_deviation xs)).
Proof.
  intros vs Hx HB Hn Hs n.
  assert (L : length xs = length vs) by (eapply F2_len; exact Hx).
  assert (Nv : vs <> []) by (intros ->; cbn in Hn; lia).
  assert (N1 : 1 <= n) by (apply (le_INR 1); lia).
  assert (Nb : n <= bpow radix2 40) by (apply INR_Z; lia).
  pose proof (small_count (length vs) ltac:(lia)) as Hc. pose proof B13 as B13. fold n in Hc.
  pose proof uro_pos as U.
  assert (E2 : bpow radix2 (-52) = 2 * uro).
  { unfold uro. change (-52)%Z with (1 + -53)%Z. rewrite bpow_plus. reflexivity. }
  assert (Fn : f64_is (fofZ (Z.of_nat (length xs)) : f64) n).
  { unfold n. rewrite INR_IZR_INZ, <- L. apply f64_ofZ_is. rewrite L.
    assert (2 ^ 40 <= 2 ^ 53)%Z by (apply Z.pow_le_mono_r; lia). lia. }
  (* the mean *)
  assert (HA : asum vs <= n * bpow radix2 200) by (apply asum_upper; exact HB).
  assert (HA' : asum vs <= bpow radix2 240).
  { eapply Rle_trans; [exact HA|]. change (bpow radix2 240) with (bpow radix2 (40 + 200)). rewrite bpow_plus.
    apply Rmult_le_compat_r; [apply bpow_ge_0|exact Nb]. }
  destruct (fsum_error xs vs Hx) as (s & Fs & Es).
  { rewrite L. fold n. lra. }
  { eapply Rle_trans; [exact HA'|]. apply bpow_le. lia. }
  rewrite L in Es. fold n in Es. rewrite rsum_total in Es.
  set (A := asum vs / n). assert (A0 : 0 <= A) by (apply Rmult_le_pos; [apply asum_nonneg|left; apply Rinv_0_lt_compat; lra]).
  assert (EA : asum vs = n * A) by (unfold A; field; lra).
  assert (AB : A <= bpow radix2 200).
  { apply Rmult_le_reg_l with n; [lra|]. rewrite <- EA. exact HA. }
  set (m0 := total vs / n).
  assert (M0 : Rabs m0 <= A).
  { unfold m0, A, Rdiv. rewrite Rabs_mult, Rabs_inv, (Rabs_pos_eq n) by lra.
    apply Rmult_le_compat_r; [left; apply Rinv_0_lt_compat; lra|]. rewrite <- rsum_total. apply rsum_le_asum. }
  assert (Ds : Rabs (s / n - m0) <= n * bpow radix2 (-52) * A).
  { unfold m0. replace (s / n - total vs / n) with ((s - total vs) / n) by (field; lra).
    unfold Rdiv. rewrite Rabs_mult, Rabs_inv, (Rabs_pos_eq n) by lra.
    apply Rmult_le_reg_r with n; [lra|]. rewrite Rmult_assoc, Rinv_l by lra. rewrite EA in Es. lra. }
  assert (U52 : n * bpow radix2 (-52) <= / 4).
  { rewrite E2. lra. }
  assert (Sn : Rabs (s / n) <= 2 * A).
  { replace (s / n) with (m0 + (s / n - m0)) by ring. eapply Rle_trans; [apply Rabs_triang|].
    assert (n * bpow radix2 (-52) * A <= / 4 * A) by (apply Rmult_le_compat_r; lra). lra. }
  assert (Fm : f64_is (fdiv (fsum xs) (fofZ (Z.of_nat (length xs)))) (rnd (s / n))).
  { apply div_is; [exact Fs|exact Fn|lra|]. eapply Rle_trans; [exact Sn|].
    apply Rle_trans with (bpow radix2 201); [|apply bpow_le; lia].
    change (bpow radix2 201) with (bpow radix2 (1 + 200)). rewrite bpow_plus. change (bpow radix2 1) with 2. lra. }
  set (m := rnd (s / n)) in *.
  assert (T75 : bpow radix2 (-1075) <= bpow radix2 (-1000)) by (apply bpow_le; lia).
  assert (Dm : Rabs (m0 - m) <= (n + 1) * bpow radix2 (-52) * A + bpow radix2 (-1000)).
  { destruct (rnd_error_gen (s / n)) as (e & h & He & Hh & E). fold m in E.
    pose proof err_le_uro as EU.
    replace (m0 - m) with (- ((s / n - m0) * (1 + e) + e * m0 + h)) by (rewrite E; ring).
    rewrite Rabs_Ropp. eapply Rle_trans; [apply Rabs_triang|]. apply Rplus_le_compat; [|lra].
    eapply Rle_trans; [apply Rabs_triang|]. rewrite !Rabs_mult.
    assert (He' : Rabs e <= uro) by lra.
    assert (H1e : Rabs (1 + e) <= 1 + uro).
    { eapply Rle_trans; [apply Rabs_triang|]. rewrite Rabs_R1. lra. }
    assert (X1 : Rabs (s / n - m0) * Rabs (1 + e) <= n * bpow radix2 (-52) * A * (1 + uro)).
    { apply Rmult_le_compat; try apply Rabs_pos; assumption. }
    assert (X2 : Rabs e * Rabs m0 <= uro * A) by (apply Rmult_le_compat; try apply Rabs_pos; assumption).
    assert (X3 : n * bpow radix2 (-52) * (A * uro) <= / 4 * (A * uro)).
    { apply Rmult_le_compat_r; [apply Rmult_le_pos; lra|exact U52]. }
    assert (0 <= A * uro) by (apply Rmult_le_pos; lra). rewrite E2 in *. lra. }
  assert (Bm : Rabs m <= bpow radix2 201).
  { assert (G : generic_format radix2 fexp64 (bpow radix2 201)) by (apply generic_format_bpow; cbn; lia).
    apply abs_round_le_generic; [typeclasses eauto..|exact G|]. eapply Rle_trans; [exact Sn|].
    change (bpow radix2 201) with (bpow radix2 (1 + 200)). rewrite bpow_plus. change (bpow radix2 1) with 2. lra. }
  (* the squares *)
  destruct (squares_are xs vs _ m Hx Fm HB Bm) as (qs & Q1 & Q2 & p & Cp & Hp).
  assert (HD := spread_about vs m Nv). fold n in HD. fold m0 in HD.
  set (W := spread vs + (m0 - m) ^ 2) in *. set (D := total (map (fun x => (x - m) ^ 2) vs)) in *.
  assert (W0 : bpow radix2 (-900) <= W) by (unfold W; pose proof (pow2_ge_0 (m0 - m)); lra).
  pose proof (bpow_gt_0 radix2 (-900)) as P900.
  assert (D0 : 0 < D) by (rewrite HD; apply Rmult_lt_0_compat; lra).
  assert (LQ : length qs = length vs).
  { apply F2_len in Q1. rewrite map_length in Q1. lia. }
  assert (C4 : close 4 (total qs) D).
  { apply (close_more 3 p (total qs) D (bpow radix2 (-175)) D0 Cp); [|cbn; lra|apply bpow_ge_0|].
    - eapply Rle_trans; [exact Hp|]. fold n. rewrite HD.
      change (bpow radix2 (-1075)) with (bpow radix2 (-175 + -900)). rewrite bpow_plus.
      pose proof (bpow_gt_0 radix2 (-175)).
      apply Rle_trans with (bpow radix2 (-175) * (n * bpow radix2 (-900))); [right; ring|].
      apply Rmult_le_compat_l; [lra|]. apply Rmult_le_compat_l; lra.
    - unfold uro, Rdiv. change (/ 8) with (bpow radix2 (-3)). rewrite <- bpow_plus. apply bpow_le. lia. }
  assert (HQ : total qs <= bpow radix2 450).
  { eapply Rle_trans; [apply total_upper with (b := bpow radix2 410)|].
    - eapply Forall_impl; [|exact Q2]. cbn. intros q Hq. lra.
    - rewrite LQ. fold n. change (bpow radix2 450) with (bpow radix2 (40 + 410)). rewrite bpow_plus.
      apply Rmult_le_compat_r; [apply bpow_ge_0|exact Nb]. }
  assert (LM : length (map (fun x => fmul (fsub x (fdiv (fsum xs) (fofZ (Z.of_nat (length xs)))))
      (fsub x (fdiv (fsum xs) (fofZ (Z.of_nat (length xs)))))) xs) = length vs) by (rewrite map_length; exact L).
  destruct (fsum_nonneg _ qs Q1) as (S & FS & CS & _).
  { eapply Forall_impl; [|exact Q2]. cbn. intros q Hq. lra. }
  { rewrite LM. fold n. lra. }
  { rewrite rsum_total. eapply Rle_trans; [exact HQ|]. apply bpow_le. lia. }
  rewrite LM, rsum_total in CS.
  assert (CSD : close (length vs + 4) S D) by (eapply close_trans; [exact CS|exact C4]).
  assert (HN4 : INR (length vs + 4) * uro <= / 2).
  { rewrite plus_INR. fold n. assert (INR 4 * uro <= / 4).
    { assert (uro <= / 16) by (change (/ 16) with (bpow radix2 (-4)); apply bpow_le; lia). cbn. lra. }
    lra. }
  assert (SD : D / 2 <= S <= 2 * D).
  { destruct CSD as (t & -> & Ht). pose proof (pow_bound _ HN4). pose proof (inv_pow_bound _ HN4).
    assert (T1 : INR (length vs + 4) * uro <= / 4).
    { rewrite plus_INR. fold n. assert (INR 4 * uro <= / 8).
      { assert (uro <= / 64) by (change (/ 64) with (bpow radix2 (-6)); apply bpow_le; lia). cbn. lra. }
      lra. }
    split.
    - apply Rle_trans with (D * / 2); [lra|]. apply Rmult_le_compat_l; lra.
    - rewrite (Rmult_comm 2). apply Rmult_le_compat_l; lra. }
  assert (Snn : S / n = W * (S / D)) by (rewrite HD; field; lra).
  assert (R1 : / 2 <= S / D <= 2).
  { split; apply Rmult_le_reg_r with D; try lra; unfold Rdiv; rewrite Rmult_assoc, Rinv_l by lra; lra. }
  assert (SL : bpow radix2 (-901) <= S / n).
  { rewrite Snn. change (bpow radix2 (-901)) with (bpow radix2 (-900 + -1)). rewrite bpow_plus.
    change (bpow radix2 (-1)) with (/ 2). apply Rmult_le_compat; lra. }
  assert (SU : S / n <= bpow radix2 451).
  { apply Rle_trans with S.
    - apply Rmult_le_reg_r with n; [lra|]. unfold Rdiv. rewrite Rmult_assoc, Rinv_l by lra.
      apply Rmult_le_compat_l; lra.
    - destruct CS as (t & -> & Ht).
      assert (Hn2 : INR (length vs) * uro <= / 2) by (fold n; lra).
      pose proof (pow_bound _ Hn2) as PB. fold n in PB.
      assert (Q0 : 0 <= total qs).
      { apply total_of_nonneg. eapply Forall_impl; [|exact Q2]. cbn. intros q Hq. lra. }
      change (bpow radix2 451) with (bpow radix2 (450 + 1)). rewrite bpow_plus. change (bpow radix2 1) with 2.
      apply Rmult_le_compat; try lra. pose proof (inv_pow_pos (length vs)). lra. }
  pose proof (bpow_gt_0 radix2 (-901)) as P901.
  set (V := rnd (S / n)).
  assert (FV : f64_is (squared_deviation xs) V).
  { apply div_is; [exact FS|exact Fn|lra|]. rewrite Rabs_pos_eq by lra. eapply Rle_trans; [exact SU|]. apply bpow_le. lia. }
  assert (CV : close 1 V (S / n)).
  { apply close_rnd. rewrite Rabs_pos_eq by lra. eapply Rle_trans; [|exact SL]. apply bpow_le. lia. }
  assert (V1 : bpow radix2 (-902) <= V <= bpow radix2 452).
  { assert (G1 : generic_format radix2 fexp64 (bpow radix2 (-902))) by (apply generic_format_bpow; cbn; lia).
    assert (G2 : generic_format radix2 fexp64 (bpow radix2 452)) by (apply generic_format_bpow; cbn; lia).
    split.
    - apply round_ge_generic; [typeclasses eauto..|exact G1|]. eapply Rle_trans; [|exact SL]. apply bpow_le. lia.
    - apply round_le_generic; [typeclasses eauto..|exact G2|]. eapply Rle_trans; [exact SU|]. apply bpow_le. lia. }
  pose proof (bpow_gt_0 radix2 (-902)) as P902.
  assert (I1 : bpow radix2 (-452) <= 1 / V).
  { unfold Rdiv. rewrite Rmult_1_l. rewrite bpow_opp with (e := 452%Z). apply Rinv_le; lra. }
  assert (I2 : 1 / V <= bpow radix2 902).
  { unfold Rdiv. rewrite Rmult_1_l. change 902%Z with (- (-902))%Z. rewrite bpow_opp. apply Rinv_le; lra. }
  pose proof (bpow_gt_0 radix2 (-452)) as P452.
  assert (F1 : f64_is (fone : f64) 1) by (apply (f64_ofZ_is 1); cbn; lia).
  assert (FR : f64_is (fdiv fone (squared_deviation xs)) (rnd (1 / V))).
  { apply div_is; [exact F1|exact FV|lra|]. rewrite Rabs_pos_eq by lra. eapply Rle_trans; [exact I2|]. apply bpow_le. lia. }
  assert (CR : close 1 (rnd (1 / V)) (1 / V)).
  { apply close_rnd. rewrite Rabs_pos_eq by lra. eapply Rle_trans; [|exact I1]. apply bpow_le. lia. }
  exists (rnd (1 / V)), (m0 - m). split; [exact FR|].
  split; [eapply close_pos; [exact CR|lra]|].
  split. { unfold A in Dm. unfold asum in Dm. rewrite rsum_total in Dm. exact Dm. }
  fold W.
  assert (CVW : close (length vs + 5) V W).
  { replace (length vs + 5)%nat with (1 + (length vs + 4))%nat by lia. eapply close_trans; [exact CV|].
    assert (EW : W = D / n) by (rewrite HD; field; lra). rewrite EW. unfold Rdiv.
    rewrite <- (Nat.add_0_r (length vs + 4)). apply close_mult; [exact CSD|apply close_refl]. }
  assert (CF : close (length vs + 6) (rnd (1 / V) * W) 1).
  { replace 1 with (/ W * W) at 2 by (field; lra).
    replace (length vs + 6)%nat with (length vs + 6 + 0)%nat by lia. apply close_mult; [|apply close_refl].
    replace (length vs + 6)%nat with (1 + (length vs + 5))%nat by lia. eapply close_trans; [exact CR|].
    unfold Rdiv. rewrite Rmult_1_l. apply close_inv. exact CVW. }
  assert (HN6 : INR (length vs + 6) * uro <= / 2).
  { rewrite plus_INR. fold n. assert (INR 6 * uro <= / 4).
    { assert (uro <= / 64) by (change (/ 64) with (bpow radix2 (-6)); apply bpow_le; lia). cbn. lra. }
    lra. }
  pose proof (close_bound _ _ _ HN6 CF) as R. rewrite plus_INR in R. fold n in R.
  replace (INR 6) with 6 in R by (cbn; ring). rewrite Rabs_R1, Rmult_1_r in R. exact R.
Qed.
