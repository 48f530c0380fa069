(** Single precision arithmetic: one rounding for each operation, sums in any order, the
    variance. *)
From Coq Require Import ZArith List Lia Reals Lra SpecFloat Permutation.
From Flocq Require Import Core BinarySingleNaN Plus_error.
From Flocq Require Import Relative Double_rounding.
From Coq Require Import List.
From Verif Require Import Lib.Base Lib.Floats Lib.Float32 Spec.FloatSpec Spec.SumSpec Spec.CoaddSpec Spec.Float32Spec
  Model.Coadd Model.CoaddF4
  Proofs.F64Facts Proofs.BaseFacts Proofs.NpSum Proofs.RoundSum Proofs.CoaddF64 Proofs.ScaleF64 Proofs.VarianceF64
  Proofs.LanczosF64 Proofs.Float32Facts.
Import ListNotations.
Open Scope R_scope.

#[local] Instance Hprec : Prec_gt_0 53 := eq_refl _.
#[local] Instance Hmax : Prec_lt_emax 53 1024 := eq_refl _.
#[local] Instance fexp64_valid : Valid_exp fexp64 := fexp_correct 53 1024 _.
#[local] Instance fexp64_mono : Monotone_exp fexp64 := fexp_monotone 53 1024.
#[local] Instance Hprec32 : Prec_gt_0 24 := eq_refl _.
#[local] Instance Hmax32 : Prec_lt_emax 24 128 := eq_refl _.
#[local] Instance fexp32_valid : Valid_exp fexp32 := fexp_correct 24 128 _.
#[local] Instance fexp32_mono : Monotone_exp fexp32 := fexp_monotone 24 128.

(** ** One rounding *)
Lemma flt32 v : single v -> FLT_format radix2 (-149) 24 v.
Proof. intros S. apply FLT_format_generic; [reflexivity|]. exact (proj1 (single_format v S)). Qed.

Lemma once_plus v w : single v -> single w -> rnd32 (rnd (v + w)) = rnd32 (v + w).
Proof.
  intros S T. apply (round_round_plus_FLT radix2 (-149) 24 (-1074) 53); try lia; try reflexivity; now apply flt32.
Qed.

Lemma once_minus v w : single v -> single w -> rnd32 (rnd (v - w)) = rnd32 (v - w).
Proof.
  intros S T. apply (round_round_minus_FLT radix2 (-149) 24 (-1074) 53); try lia; try reflexivity; now apply flt32.
Qed.

Lemma once_mult v w : single v -> single w -> rnd32 (rnd (v * w)) = rnd32 (v * w).
Proof.
  intros S T. apply (round_round_mult_FLT radix2 _ (-149) 24 (-1074) 53); try lia; try reflexivity; now apply flt32.
Qed.

Lemma once_div v w : single v -> single w -> w <> 0 -> rnd32 (rnd (v / w)) = rnd32 (v / w).
Proof.
  intros S T N. apply (round_round_div_FLT radix2 (-149) 24 (-1074) 53); try lia; try reflexivity; try now apply flt32.
  - exists 1%Z. reflexivity.
  - exact N.
Qed.

Definition is32 (x : f64) (v : R) : Prop := f64_is x v /\ single v.
Definition u32 : R := bpow radix2 (-24).

Lemma u32_val : u32 = / 16777216. Proof. reflexivity. Qed.

Lemma op32 z x : f64_is z (rnd x) -> rnd32 (rnd x) = rnd32 x -> Rabs x <= bpow radix2 120 ->
  is32 (to_single z) (rnd32 x).
Proof.
  intros Hz E B. assert (B4 : Rabs (rnd32 x) < bpow radix2 128).
  { eapply Rle_lt_trans; [apply single_small, B|]. apply bpow_lt. lia. }
  split; [|now apply rnd32_single]. rewrite <- E. apply to_single_is; [exact Hz|]. now rewrite E.
Qed.

Lemma up1000 x : Rabs x <= bpow radix2 120 -> Rabs x <= bpow radix2 1000.
Proof. intros H. eapply Rle_trans; [exact H|]. apply bpow_le. lia. Qed.

Lemma add32 a b v w : is32 a v -> is32 b w -> Rabs (v + w) <= bpow radix2 120 ->
  is32 (@fadd f64 F32Ops a b) (rnd32 (v + w)).
Proof.
  intros [Ha Sa] [Hb Sb] B. apply op32; [|now apply once_plus|exact B]. apply add_is; [assumption..|]. now apply up1000.
Qed.

Lemma sub32 a b v w : is32 a v -> is32 b w -> Rabs (v - w) <= bpow radix2 120 ->
  is32 (@fsub f64 F32Ops a b) (rnd32 (v - w)).
Proof.
  intros [Ha Sa] [Hb Sb] B. apply op32; [|now apply once_minus|exact B]. apply sub_is; [assumption..|]. now apply up1000.
Qed.

Lemma mul32 a b v w : is32 a v -> is32 b w -> Rabs (v * w) <= bpow radix2 120 ->
  is32 (@fmul f64 F32Ops a b) (rnd32 (v * w)).
Proof.
  intros [Ha Sa] [Hb Sb] B. apply op32; [|now apply once_mult|exact B]. apply mul_is; [assumption..|]. now apply up1000.
Qed.

Lemma div32 a b v w : is32 a v -> is32 b w -> w <> 0 -> Rabs (v / w) <= bpow radix2 120 ->
  is32 (@fdiv f64 F32Ops a b) (rnd32 (v / w)).
Proof.
  intros [Ha Sa] [Hb Sb] N B. apply op32; [|now apply once_div|exact B]. apply div_is; [assumption..|]. now apply up1000.
Qed.

Lemma ofZ32 z : (Z.abs z < 2 ^ 24)%Z -> is32 (@fofZ f64 F32Ops z) (IZR z).
Proof.
  intros H. assert (S : single (IZR z)).
  { exists z, 0%Z. split; [cbn; ring|]. split; [exact H|lia]. }
  assert (H53 : (Z.abs z <= 2 ^ 53)%Z) by (assert (2 ^ 24 < 2 ^ 53)%Z by reflexivity; lia).
  split; [|exact S]. cbn [fofZ F32Ops]. rewrite <- (rnd32_id _ S). apply to_single_is.
  - now apply f64_ofZ_is.
  - rewrite (rnd32_id _ S). now apply single_format.
Qed.

Lemma add32_error v w : single v -> single w -> exists e, Rabs e <= u32 /\ rnd32 (v + w) = (v + w) * (1 + e).
Proof.
  intros S T.
  destruct (FLT_plus_error_N_ex radix2 (-149) 24 (fun x => negb (Z.even x)) v w
              (proj1 (single_format _ S)) (proj1 (single_format _ T))) as (e & He & E).
  exists e. split; [|exact E]. eapply Rle_trans; [exact He|].
  assert (U : u_ro radix2 24 = u32).
  { unfold u_ro, u32. change (/ 2) with (bpow radix2 (-1)). rewrite <- bpow_plus. reflexivity. }
  rewrite U, u32_val. lra.
Qed.

Lemma single_opp v : single v -> single (- v).
Proof. intros (m & e & -> & H & G). exists (- m)%Z, e. rewrite opp_IZR. split; [ring|]. split; [lia|exact G]. Qed.

Lemma u32_pow_ge k : 1 <= (1 + u32) ^ k.
Proof. apply pow_R1_Rle. rewrite u32_val. lra. Qed.

Lemma u32_pow_mono k k' : (k <= k')%nat -> (1 + u32) ^ k <= (1 + u32) ^ k'.
Proof. intros H. apply Rle_pow; [rewrite u32_val; lra|exact H]. Qed.

Lemma u32_pow_bound n : INR n * u32 <= / 16 -> (1 + u32) ^ n <= 1 + 11 / 10 * INR n * u32.
Proof.
  rewrite u32_val. induction n as [|n IH]; intros H; [cbn; lra|].
  rewrite S_INR in *. assert (0 <= INR n) by apply pos_INR.
  assert (IH' := IH ltac:(lra)). cbn [pow].
  apply Rle_trans with ((1 + / 16777216) * (1 + 11 / 10 * INR n * / 16777216)).
  - apply Rmult_le_compat_l; lra.
  - lra.
Qed.

(** ** Sums in any order *)
Lemma F2_perm32 l vs l' : Permutation l l' -> Forall2 is32 l vs -> exists vs', Permutation vs vs' /\ Forall2 is32 l' vs'.
Proof. intros P H. exact (Permutation_Forall2 P H). Qed.

Lemma adds_error32 (l : list f64) s : @adds f64 F32Ops l s -> forall vs, Forall2 is32 l vs ->
  (1 + u32) ^ length l * asum vs <= bpow radix2 120 ->
  exists v, is32 s v /\ Rabs (v - rsum vs) <= ((1 + u32) ^ (length l - 1) - 1) * asum vs.
Proof.
  induction 1 as [|x|l1 l2 l s1 s2 _ IH1 _ IH2 P]; intros vs Hv Hb.
  - inversion Hv; subst. exists 0. split; [apply (ofZ32 0); cbn; lia|].
    unfold asum. cbn. replace (0 - 0) with 0 by ring. rewrite Rabs_R0. lra.
  - inversion Hv as [|? v ? m Hx Hm]; subst. inversion Hm; subst. exists v. split; [exact Hx|].
    unfold asum. cbn. replace (v - (v + 0)) with 0 by ring. rewrite Rabs_R0. lra.
  - destruct (F2_perm32 _ _ _ (Permutation_sym P) Hv) as (vs' & P' & Hv').
    destruct (F2_app_l _ _ _ _ Hv') as (v1 & v2 & -> & H1 & H2).
    rewrite (rsum_perm _ _ P'), (asum_perm _ _ P') in *. rewrite rsum_app, asum_app in *.
    pose proof (Permutation_length P) as L. rewrite app_length in L. rewrite <- L in *. clear L P' P Hv Hv'.
    pose proof (asum_nonneg v1) as A1. pose proof (asum_nonneg v2) as A2.
    assert (U : 0 < u32) by (rewrite u32_val; lra).
    set (n1 := length l1) in *. set (n2 := length l2) in *.
    assert (B1 : (1 + u32) ^ n1 * asum v1 <= bpow radix2 120).
    { eapply Rle_trans; [|exact Hb]. pose proof (u32_pow_ge n1). pose proof (u32_pow_mono n1 (n1 + n2) ltac:(lia)).
      apply Rmult_le_compat; lra. }
    assert (B2 : (1 + u32) ^ n2 * asum v2 <= bpow radix2 120).
    { eapply Rle_trans; [|exact Hb]. pose proof (u32_pow_ge n2). pose proof (u32_pow_mono n2 (n1 + n2) ltac:(lia)).
      apply Rmult_le_compat; lra. }
    destruct (IH1 v1 H1 B1) as (w1 & F1 & E1). destruct (IH2 v2 H2 B2) as (w2 & F2 & E2). clear IH1 IH2.
    assert (W : forall n v w, Rabs (w - rsum v) <= ((1 + u32) ^ (n - 1) - 1) * asum v -> Rabs w <= (1 + u32) ^ (n - 1) * asum v).
    { intros n v w E. replace w with ((w - rsum v) + rsum v) by ring. eapply Rle_trans; [apply Rabs_triang|].
      pose proof (rsum_le_asum v). lra. }
    pose proof (W _ _ _ E1) as W1. pose proof (W _ _ _ E2) as W2. clear W.
    assert (S12 : Rabs (w1 + w2) <= bpow radix2 120).
    { eapply Rle_trans; [apply Rabs_triang|]. eapply Rle_trans; [|exact Hb].
      rewrite Rmult_plus_distr_l.
      pose proof (u32_pow_mono (n1 - 1) (n1 + n2) ltac:(lia)). pose proof (u32_pow_mono (n2 - 1) (n1 + n2) ltac:(lia)).
      apply Rplus_le_compat; (eapply Rle_trans; [eassumption|]); apply Rmult_le_compat_r; assumption. }
    exists (rnd32 (w1 + w2)). split; [apply add32; assumption|].
    destruct l1 as [|x1 l1'] eqn:El1.
    { apply F2_length in H1. destruct v1; [|discriminate]. unfold asum in *. cbn in *.
      assert (w1 = 0) as ->. { revert E1. replace (w1 - 0) with w1 by ring. intros E1. assert (Rabs w1 <= 0) by lra.
        destruct (Req_dec w1 0); [assumption|]. pose proof (Rabs_pos_lt w1 ltac:(assumption)). lra. }
      rewrite !Rplus_0_l. rewrite rnd32_id by exact (proj2 F2). exact E2. }
    destruct l2 as [|x2 l2'] eqn:El2.
    { apply F2_length in H2. destruct v2; [|discriminate]. unfold asum in *. cbn in *.
      assert (w2 = 0) as ->. { revert E2. replace (w2 - 0) with w2 by ring. intros E2. assert (Rabs w2 <= 0) by lra.
        destruct (Req_dec w2 0); [assumption|]. pose proof (Rabs_pos_lt w2 ltac:(assumption)). lra. }
      rewrite !Rplus_0_r. rewrite rnd32_id by exact (proj2 F1). unfold n2. cbn [length]. rewrite Nat.add_0_r. exact E1. }
    set (k := (n1 + n2 - 2)%nat).
    assert (K : (n1 + n2 - 1 = S k)%nat) by (unfold k, n1, n2; cbn; lia).
    assert (K1 : (n1 - 1 <= k)%nat) by (unfold k, n1, n2; cbn; lia).
    assert (K2 : (n2 - 1 <= k)%nat) by (unfold k, n1, n2; cbn; lia).
    rewrite K. cbn [pow]. pose proof (u32_pow_mono _ _ K1) as M1. pose proof (u32_pow_mono _ _ K2) as M2.
    pose proof (u32_pow_ge k) as Pk. set (p := (1 + u32) ^ k) in *.
    assert (E1' : Rabs (w1 - rsum v1) <= (p - 1) * asum v1).
    { eapply Rle_trans; [exact E1|]. apply Rmult_le_compat_r; lra. }
    assert (E2' : Rabs (w2 - rsum v2) <= (p - 1) * asum v2).
    { eapply Rle_trans; [exact E2|]. apply Rmult_le_compat_r; lra. }
    assert (W1' : Rabs w1 <= p * asum v1).
    { eapply Rle_trans; [exact W1|]. apply Rmult_le_compat_r; lra. }
    assert (W2' : Rabs w2 <= p * asum v2).
    { eapply Rle_trans; [exact W2|]. apply Rmult_le_compat_r; lra. }
    destruct (add32_error w1 w2 (proj2 F1) (proj2 F2)) as (e & He' & E). rewrite E.
    replace ((w1 + w2) * (1 + e) - (rsum v1 + rsum v2)) with ((w1 - rsum v1) + (w2 - rsum v2) + e * (w1 + w2)) by ring.
    eapply Rle_trans; [apply Rabs_triang|]. rewrite Rabs_mult.
    assert (X : Rabs e * Rabs (w1 + w2) <= u32 * (p * (asum v1 + asum v2))).
    { apply Rmult_le_compat; try apply Rabs_pos; [exact He'|]. eapply Rle_trans; [apply Rabs_triang|]. lra. }
    assert (Y : Rabs (w1 - rsum v1 + (w2 - rsum v2)) <= (p - 1) * (asum v1 + asum v2)).
    { eapply Rle_trans; [apply Rabs_triang|]. lra. }
    replace (((1 + u32) * p - 1) * (asum v1 + asum v2)) with ((p - 1) * (asum v1 + asum v2) + u32 * (p * (asum v1 + asum v2))) by ring.
    lra.
Qed.

(** ** The variance *)
Notation eta := (bpow radix2 (-150)).

Lemma square32 (x a : f64) v m : is32 x v -> is32 a m -> Rabs v <= bpow radix2 40 -> Rabs m <= bpow radix2 41 ->
  exists q, is32 (@fmul f64 F32Ops (@fsub f64 F32Ops x a) (@fsub f64 F32Ops x a)) q /\ 0 <= q /\ (v - m) ^ 2 <= bpow radix2 84 /\
    Rabs (q - (v - m) ^ 2) <= 4 * u32 * (v - m) ^ 2 + eta.
Proof.
  intros Hx Ha Bv Bm.
  assert (T : Rabs (v - m) <= bpow radix2 42).
  { unfold Rminus. eapply Rle_trans; [apply Rabs_triang|]. rewrite Rabs_Ropp.
    change (bpow radix2 40) with 1099511627776 in Bv. change (bpow radix2 41) with 2199023255552 in Bm.
    change (bpow radix2 42) with 4398046511104. lra. }
  assert (Hs : is32 (@fsub f64 F32Ops x a) (rnd32 (v - m))).
  { apply sub32; [exact Hx|exact Ha|]. eapply Rle_trans; [exact T|]. apply bpow_le. lia. }
  destruct (add32_error v (- m) (proj2 Hx) (single_opp _ (proj2 Ha))) as (e1 & He1 & E1).
  change (v + - m) with (v - m) in E1. rewrite E1 in Hs. set (z := v - m) in *.
  assert (Z0 : 0 <= z ^ 2) by apply pow2_ge_0.
  assert (Z2 : z ^ 2 <= bpow radix2 84).
  { replace (z ^ 2) with (Rabs z * Rabs z) by (rewrite <- Rabs_mult, Rabs_pos_eq; nra).
    change (bpow radix2 84) with (bpow radix2 (42 + 42)). rewrite bpow_plus.
    apply Rmult_le_compat; try apply Rabs_pos; exact T. }
  rewrite u32_val in *. apply Rabs_le_inv in He1.
  set (y := z * (1 + e1)) in *.
  assert (Ey : y * y = z ^ 2 * ((1 + e1) * (1 + e1))) by (unfold y; ring).
  assert (G : / 2 <= (1 + e1) * (1 + e1) <= 2) by nra.
  assert (Y2 : 0 <= y * y <= bpow radix2 85).
  { split; [apply Rle_0_sqr|]. rewrite Ey. change (bpow radix2 85) with (bpow radix2 (84 + 1)). rewrite bpow_plus.
    change (bpow radix2 1) with 2. apply Rmult_le_compat; lra. }
  exists (rnd32 (y * y)). split.
  { apply mul32; [exact Hs|exact Hs|]. rewrite Rabs_pos_eq by lra. eapply Rle_trans; [apply Y2|]. apply bpow_le. lia. }
  split. { rewrite <- rnd32_0. apply round_le; [typeclasses eauto..|lra]. }
  split; [exact Z2|].
  destruct (rnd32_error (y * y)) as (e2 & h & He2 & Hh & E2). rewrite E2, Ey.
  change (bpow radix2 (-24)) with (/ 16777216) in He2. apply Rabs_le_inv in He2.
  replace (z ^ 2 * ((1 + e1) * (1 + e1)) * (1 + e2) + h - z ^ 2)
    with (((1 + e1) * (1 + e1) * (1 + e2) - 1) * z ^ 2 + h) by ring.
  eapply Rle_trans; [apply Rabs_triang|]. apply Rplus_le_compat; [|exact Hh].
  rewrite Rabs_mult, (Rabs_pos_eq (z ^ 2)) by exact Z0. apply Rmult_le_compat_r; [exact Z0|].
  assert (G1 : 1 - 2 * / 16777216 <= (1 + e1) * (1 + e1) <= 1 + 2 * / 16777216 + / 16777216 * / 16777216) by nra.
  set (g := (1 + e1) * (1 + e1)) in *. apply Rabs_le. split; nra.
Qed.

Lemma total_cons x l : total (x :: l) = x + total l. Proof. reflexivity. Qed.

Lemma squares32 (xs : list f64) vs a m : Forall2 is32 xs vs -> is32 a m ->
  Forall (fun x => Rabs x <= bpow radix2 40) vs -> Rabs m <= bpow radix2 41 ->
  let D := total (map (fun x => (x - m) ^ 2) vs) in
  exists qs, Forall2 is32 (map (fun x => @fmul f64 F32Ops (@fsub f64 F32Ops x a) (@fsub f64 F32Ops x a)) xs) qs /\
    Forall (fun q => 0 <= q) qs /\ 0 <= D <= INR (length vs) * bpow radix2 84 /\
    Rabs (total qs - D) <= 4 * u32 * D + INR (length vs) * eta.
Proof.
  intros H Ha HB Bm. cbv zeta. revert HB. induction H as [|x v xs vs Hx _ IH]; intros HB.
  - exists []. split; [constructor|]. split; [constructor|]. cbn. rewrite Rminus_0_r, Rabs_R0. lra.
  - inversion HB as [|? ? B1 B2]; subst. destruct (IH B2) as (qs & Q1 & Q2 & Q3 & Q4).
    destruct (square32 x a v m Hx Ha B1 Bm) as (q & S1 & S2 & S3 & S4).
    exists (q :: qs). split; [constructor; assumption|]. split; [constructor; assumption|].
    cbn [map length]. rewrite S_INR. rewrite !total_cons.
    pose proof (pow2_ge_0 (v - m)) as P. set (z := (v - m) ^ 2) in *.
    set (D := total (map (fun x0 => (x0 - m) ^ 2) vs)) in *. set (b := bpow radix2 84) in *. clearbody b.
    set (h := eta) in *. clearbody h.
    split; [split; lra|].
    replace (q + total qs - (z + D)) with ((q - z) + (total qs - D)) by ring.
    eapply Rle_trans; [apply Rabs_triang|]. lra.
Qed.

Lemma asum_of_nonneg l : Forall (fun x => 0 <= x) l -> asum l = total l.
Proof.
  induction 1 as [|x l Hx _ IH]; [reflexivity|]. rewrite asum_cons, total_cons, IH, Rabs_pos_eq by exact Hx. reflexivity.
Qed.

Lemma asum_abs l : asum l = total (map Rabs l).
Proof. induction l as [|x l IH]; [reflexivity|]. rewrite asum_cons, IH. reflexivity. Qed.

Lemma mean32 (xs : list f64) vs : Forall2 is32 xs vs -> Forall (fun x => Rabs x <= bpow radix2 80) vs ->
  (0 < Z.of_nat (length vs) <= 2 ^ 20)%Z ->
  let n := INR (length vs) in
  exists s m, is32 (@mean f64 F32Ops xs) m /\ m = rnd32 (s / n) /\ Rabs (s / n) <= bpow radix2 120 /\
    Rabs (s - rsum vs) <= 11 / 10 * (n - 1) * u32 * asum vs.
Proof.
  intros H HB Hn. cbv zeta. set (n := INR (length vs)).
  pose proof (F2_len _ _ _ H) as L.
  assert (N1 : 1 <= n) by (unfold n; rewrite INR_IZR_INZ; apply (IZR_le 1); lia).
  assert (N20 : n <= 1048576) by (unfold n; rewrite INR_IZR_INZ; apply (IZR_le _ (2 ^ 20)); lia).
  assert (A : asum vs <= bpow radix2 100).
  { eapply Rle_trans; [apply (asum_upper vs (bpow radix2 80)), HB|]. fold n.
    change (bpow radix2 100) with (bpow radix2 (20 + 80)). rewrite bpow_plus.
    apply Rmult_le_compat_r; [apply bpow_ge_0|]. exact N20. }
  pose proof (asum_nonneg vs) as A0.
  assert (P2 : (1 + u32) ^ length xs <= 2).
  { rewrite L. eapply Rle_trans; [apply u32_pow_bound|]; fold n; rewrite u32_val; lra. }
  pose proof (u32_pow_ge (length xs)) as P1.
  assert (B120 : bpow radix2 120 = bpow radix2 100 * 1048576).
  { change 120%Z with (100 + 20)%Z. rewrite bpow_plus. reflexivity. }
  pose proof (bpow_gt_0 radix2 100) as P100.
  destruct (adds_error32 xs (@fsum f64 F32Ops xs) (@adds_fsum f64 F32Ops xs) vs H) as (s & Hs & Es).
  { rewrite B120. apply Rle_trans with (2 * bpow radix2 100); [apply Rmult_le_compat; lra|lra]. }
  assert (En : INR (length xs - 1) = n - 1).
  { rewrite minus_INR by lia. rewrite L. reflexivity. }
  assert (Pb : (1 + u32) ^ (length xs - 1) <= 1 + 11 / 10 * (n - 1) * u32).
  { rewrite <- En. apply u32_pow_bound. rewrite En, u32_val. lra. }
  assert (Es' : Rabs (s - rsum vs) <= 11 / 10 * (n - 1) * u32 * asum vs).
  { eapply Rle_trans; [exact Es|]. apply Rmult_le_compat_r; lra. }
  assert (Bs : Rabs s <= bpow radix2 120).
  { replace s with ((s - rsum vs) + rsum vs) by ring. eapply Rle_trans; [apply Rabs_triang|].
    pose proof (rsum_le_asum vs). pose proof (u32_pow_mono (length xs - 1) (length xs) ltac:(lia)).
    assert (((1 + u32) ^ (length xs - 1) - 1) * asum vs <= 1 * bpow radix2 100).
    { pose proof (u32_pow_ge (length xs - 1)). apply Rmult_le_compat; lra. }
    rewrite B120. lra. }
  assert (Bq : Rabs (s / n) <= bpow radix2 120).
  { unfold Rdiv. rewrite Rabs_mult, Rabs_inv, (Rabs_pos_eq n) by lra.
    apply Rle_trans with (Rabs s * 1); [|lra]. apply Rmult_le_compat_l; [apply Rabs_pos|].
    rewrite <- Rinv_1. apply Rinv_le; lra. }
  exists s, (rnd32 (s / n)). split; [|split; [reflexivity|split; [exact Bq|exact Es']]].
  unfold mean. apply div32; [exact Hs| |lra|exact Bq].
  unfold n. rewrite INR_IZR_INZ, L. apply ofZ32. assert (2 ^ 20 < 2 ^ 24)%Z by reflexivity. lia.
Qed.

Theorem inverse_spread_single_is ds : inverse_spread_single ds (to_single (inverse_variance_single ds)).
Proof.
  intros xs Hd Hs HB Hn Hsp. cbv zeta. set (n := INR (length xs)).
  assert (H : Forall2 is32 ds xs).
  { clear - Hd Hs. revert Hs. induction Hd; intros Hs; [constructor|]. inversion Hs; subst.
    constructor; [split; assumption|now apply IHHd]. }
  assert (N1 : 1 <= n) by (unfold n; rewrite INR_IZR_INZ; apply (IZR_le 1); lia).
  assert (N20 : n <= 1048576) by (unfold n; rewrite INR_IZR_INZ; apply (IZR_le _ (2 ^ 20)); lia).
  assert (Hne : xs <> []) by (intros ->; cbn in Hn; lia).
  (* the mean *)
  destruct (mean32 ds xs H) as (s & m & Hm & Em & Bsn & Es); [|exact Hn|].
  { eapply Forall_impl; [|exact HB]. cbn beta. intros x Hx. eapply Rle_trans; [exact Hx|]. apply bpow_le. lia. }
  fold n in Em, Bsn, Es. rewrite u32_val in Es.
  destruct (rnd32_error (s / n)) as (e0 & h0 & He0 & Hh0 & E0).
  change (bpow radix2 (-24)) with (/ 16777216) in He0.
  set (A := asum xs / n). pose proof (asum_nonneg xs) as A0'.
  assert (In : 0 < / n) by (apply Rinv_0_lt_compat; lra).
  assert (A0 : 0 <= A) by (apply Rmult_le_pos; lra).
  assert (AB : A <= bpow radix2 40).
  { unfold A. apply Rmult_le_reg_r with n; [lra|]. unfold Rdiv. rewrite Rmult_assoc, Rinv_l, Rmult_1_r by lra.
    rewrite Rmult_comm. apply (asum_upper xs (bpow radix2 40)), HB. }
  assert (Emean : total xs / n = rsum xs / n) by (unfold Rdiv; f_equal; symmetry; apply rsum_total).
  assert (Dsn : Rabs (s / n - rsum xs / n) <= 11 / 10 * (n - 1) * / 16777216 * A).
  { replace (s / n - rsum xs / n) with ((s - rsum xs) * / n) by (field; lra).
    rewrite Rabs_mult, (Rabs_pos_eq (/ n)) by lra. unfold A, Rdiv. rewrite <- Rmult_assoc.
    apply Rmult_le_compat_r; lra. }
  assert (Ma : Rabs (rsum xs / n) <= A).
  { unfold A, Rdiv. rewrite Rabs_mult, (Rabs_pos_eq (/ n)) by lra. apply Rmult_le_compat_r; [lra|]. apply rsum_le_asum. }
  assert (Dm : Rabs (rsum xs / n - m) <= (n + 1) * (2 * / 16777216) * A + eta).
  { rewrite Em, E0. set (k := s / n) in *. set (q := rsum xs / n) in *.
    replace (q - (k * (1 + e0) + h0)) with (- ((k - q) * (1 + e0)) + (- (q * e0) + - h0)) by ring.
    eapply Rle_trans; [apply Rabs_triang|]. rewrite Rabs_Ropp.
    eapply Rle_trans; [apply Rplus_le_compat_l, Rabs_triang|]. rewrite !Rabs_Ropp, !Rabs_mult.
    assert (X1 : Rabs (1 + e0) <= 1 + / 16777216).
    { eapply Rle_trans; [apply Rabs_triang|]. rewrite Rabs_R1. lra. }
    assert (X2 : Rabs (k - q) * Rabs (1 + e0) <= (11 / 10 * (n - 1) * / 16777216 * A) * (1 + / 16777216)).
    { apply Rmult_le_compat; try apply Rabs_pos; assumption. }
    assert (X3 : Rabs q * Rabs e0 <= A * / 16777216) by (apply Rmult_le_compat; try apply Rabs_pos; assumption).
    assert (X4 : 0 <= (n - 1) * A) by (apply Rmult_le_pos; lra).
    assert (X5 : (11 / 10 * (n - 1) * / 16777216 * A) * (1 + / 16777216)
                 = 11 / 10 * / 16777216 * (1 + / 16777216) * ((n - 1) * A)) by ring.
    assert (X6 : (n + 1) * (2 * / 16777216) * A = 2 * / 16777216 * ((n - 1) * A) + 4 * / 16777216 * A) by ring.
    rewrite X5 in X2. rewrite X6. generalize dependent eta. intros. lra. }
  assert (E1 : eta <= 1) by (change 1 with (bpow radix2 0); apply bpow_le; lia).
  assert (Em0 : 0 < eta) by apply bpow_gt_0.
  assert (Bm : Rabs m <= bpow radix2 41).
  { replace m with (rsum xs / n - (rsum xs / n - m)) by ring. unfold Rminus at 1.
    eapply Rle_trans; [apply Rabs_triang|]. rewrite Rabs_Ropp.
    assert ((n + 1) * (2 * / 16777216) * A <= / 4 * A) by (apply Rmult_le_compat_r; lra).
    change (bpow radix2 41) with 2199023255552. change (bpow radix2 40) with 1099511627776 in AB. lra. }
  (* the squares *)
  destruct (squares32 ds xs (@mean f64 F32Ops ds) m H Hm HB Bm) as (qs & Hq & Q0 & QD & QE).
  set (D := total (map (fun x => (x - m) ^ 2) xs)) in *.
  assert (ED : D = n * (spread xs + (total xs / n - m) ^ 2)) by (apply spread_about, Hne).
  set (d := total xs / n - m) in *. set (V := spread xs + d ^ 2) in *.
  assert (V0 : bpow radix2 (-60) <= V) by (unfold V; pose proof (pow2_ge_0 d); lra).
  assert (V60 : 0 < bpow radix2 (-60)) by apply bpow_gt_0.
  assert (VB : V <= bpow radix2 84).
  { apply Rmult_le_reg_l with n; [lra|]. rewrite <- ED. apply QD. }
  assert (Lq : length qs = length xs).
  { rewrite <- (F2_len _ _ _ Hq), map_length. exact (F2_len _ _ _ H). }
  (* small numbers *)
  assert (Esm : eta <= / 1237940039285380274899124224 * V).
  { apply Rle_trans with (bpow radix2 (-90) * bpow radix2 (-60)).
    - rewrite <- bpow_plus. apply bpow_le. lia.
    - apply Rmult_le_compat; try apply bpow_ge_0; [|exact V0]. right. reflexivity. }
  set (h := eta) in *.
  fold n in QE, QD. rewrite u32_val in QE.
  assert (Qup : Forall (fun x => Rabs x <= bpow radix2 80) qs \/ True) by now right. clear Qup.
  assert (SQ : Rabs (total qs / n - V) <= 4 * / 16777216 * V + h).
  { replace (total qs / n - V) with ((total qs - D) * / n) by (rewrite ED; field; lra).
    rewrite Rabs_mult, (Rabs_pos_eq (/ n)) by lra.
    apply Rmult_le_reg_r with n; [lra|]. rewrite Rmult_assoc, Rinv_l, Rmult_1_r by lra.
    eapply Rle_trans; [exact QE|]. rewrite ED. right. ring. }
  assert (Aq : asum qs = total qs) by (apply asum_of_nonneg, Q0).
  assert (Tq0 : 0 <= total qs) by (apply total_of_nonneg, Q0).
  assert (Pq : (1 + u32) ^ length qs <= 2).
  { rewrite Lq. eapply Rle_trans; [apply u32_pow_bound|]; fold n; rewrite u32_val; lra. }
  assert (TqV : total qs / n <= 2 * V) by (apply Rabs_le_inv in SQ; lra).
  set (sq := map (fun x => @fmul f64 F32Ops (@fsub f64 F32Ops x (@mean f64 F32Ops ds)) (@fsub f64 F32Ops x (@mean f64 F32Ops ds))) ds) in *.
  assert (Lsq : length sq = length qs) by exact (F2_len _ _ _ Hq).
  destruct (adds_error32 sq (@fsum f64 F32Ops sq) (@adds_fsum f64 F32Ops sq) qs Hq) as (S2 & HS2 & ES2).
  { rewrite Lsq, Aq. apply Rle_trans with (2 * (n * (2 * bpow radix2 84))).
    - apply Rmult_le_compat; [pose proof (u32_pow_ge (length qs)); lra|exact Tq0|exact Pq|].
      apply Rmult_le_reg_r with (/ n); [lra|]. replace (n * (2 * bpow radix2 84) * / n) with (2 * bpow radix2 84) by (field; lra).
      apply Rle_trans with (2 * V); [exact TqV|]. lra.
    - apply Rle_trans with (bpow radix2 36 * bpow radix2 84); [|rewrite <- bpow_plus; apply bpow_le; lia].
      replace (2 * (n * (2 * bpow radix2 84))) with (4 * n * bpow radix2 84) by ring.
      apply Rmult_le_compat_r; [apply bpow_ge_0|]. change (bpow radix2 36) with 68719476736. lra. }
  rewrite Lsq, Lq, Aq in ES2. change (rsum qs) with (total qs) in ES2.
  assert (En : INR (length xs - 1) = n - 1) by (rewrite minus_INR by lia; reflexivity).
  assert (Pb : (1 + u32) ^ (length xs - 1) <= 1 + 11 / 10 * (n - 1) * / 16777216).
  { rewrite <- En, <- u32_val. apply u32_pow_bound. rewrite En, u32_val. lra. }
  pose proof (u32_pow_ge (length xs - 1)) as Pb1.
  set (p := (1 + u32) ^ (length xs - 1)) in *.
  assert (ES3 : Rabs (S2 / n - total qs / n) <= (p - 1) * (total qs / n)).
  { replace (S2 / n - total qs / n) with ((S2 - total qs) * / n) by (field; lra).
    rewrite Rabs_mult, (Rabs_pos_eq (/ n)) by lra. unfold Rdiv. rewrite <- Rmult_assoc. apply Rmult_le_compat_r; lra. }
  set (T := total qs / n) in *. set (W := S2 / n) in *.
  set (g := 11 / 10 * (n - 1) * / 16777216) in *.
  assert (G : 0 <= g <= 7 / 100) by (unfold g; lra).
  assert (T1 : T <= (1 + 4 * / 16777216) * V + h) by (apply Rabs_le_inv in SQ; lra).
  assert (T0 : 0 <= T) by (unfold T; apply Rmult_le_pos; lra).
  assert (W1 : Rabs (W - V) <= (102 / 100 * g + 5 * / 16777216) * V).
  { replace (W - V) with ((W - T) + (T - V)) by ring. eapply Rle_trans; [apply Rabs_triang|].
    assert (X1 : (p - 1) * T <= g * ((1 + 4 * / 16777216) * V + h)) by (apply Rmult_le_compat; lra).
    assert (X2 : g * ((1 + 4 * / 16777216) * V + h) <= g * (102 / 100 * V)).
    { apply Rmult_le_compat_l; lra. }
    replace (g * (102 / 100 * V)) with (102 / 100 * (g * V)) in X2 by ring.
    replace ((102 / 100 * g + 5 * / 16777216) * V) with (102 / 100 * (g * V) + 5 * / 16777216 * V) by ring. lra. }
  assert (GV : 0 <= g * V <= 7 / 100 * V) by (split; [apply Rmult_le_pos; lra|apply Rmult_le_compat_r; lra]).
  assert (W2 : / 2 * V <= W <= 2 * V) by (apply Rabs_le_inv in W1; lra).
  (* the variance *)
  assert (BW : Rabs W <= bpow radix2 120).
  { rewrite Rabs_pos_eq by lra. apply Rle_trans with (2 * bpow radix2 84); [lra|].
    change 2 with (bpow radix2 1). rewrite <- bpow_plus. apply bpow_le. lia. }
  assert (Hvar : is32 (@variance f64 F32Ops ds) (rnd32 W)).
  { unfold variance. unfold mean at 1. cbv zeta. fold sq. apply div32; [exact HS2| |lra|exact BW].
    unfold n. rewrite INR_IZR_INZ. rewrite Lsq, Lq. apply ofZ32.
    assert (2 ^ 20 < 2 ^ 24)%Z by reflexivity. lia. }
  destruct (rnd32_error W) as (e1 & h1 & He1 & Hh1 & E1'). change (bpow radix2 (-24)) with (/ 16777216) in He1.
  rewrite E1' in Hvar. set (var := W * (1 + e1) + h1) in *.
  assert (VW : Rabs (var - V) <= (102 / 100 * g + 7 * / 16777216) * V).
  { replace (var - V) with ((W - V) + (W * e1 + h1)) by (unfold var; ring).
    eapply Rle_trans; [apply Rabs_triang|].
    assert (X1 : Rabs (W * e1 + h1) <= W * / 16777216 + h).
    { eapply Rle_trans; [apply Rabs_triang|]. rewrite Rabs_mult, (Rabs_pos_eq W) by lra.
      apply Rplus_le_compat; [|exact Hh1]. apply Rmult_le_compat_l; lra. }
    assert (X2 : W <= 109 / 100 * V).
    { apply Rabs_le_inv in W1. replace ((102 / 100 * g + 5 * / 16777216) * V)
        with (102 / 100 * (g * V) + 5 * / 16777216 * V) in W1 by ring. lra. }
    replace ((102 / 100 * g + 7 * / 16777216) * V)
        with ((102 / 100 * g + 5 * / 16777216) * V + 2 * / 16777216 * V) by ring. lra. }
  set (tau := 102 / 100 * g + 7 * / 16777216) in *.
  assert (Tau : 0 <= tau <= 8 / 100) by (unfold tau; lra).
  assert (TV : tau * V <= 8 / 100 * V) by (apply Rmult_le_compat_r; lra).
  assert (Vv : 92 / 100 * V <= var <= 108 / 100 * V) by (apply Rabs_le_inv in VW; lra).
  assert (Ip : 0 < / var) by (apply Rinv_0_lt_compat; lra).
  (* one over the variance *)
  assert (Q1 : 1 / var <= bpow radix2 70).
  { unfold Rdiv. rewrite Rmult_1_l. rewrite <- (Rinv_inv (bpow radix2 70)), <- bpow_opp. apply Rinv_le; [apply bpow_gt_0|].
    apply Rle_trans with (92 / 100 * bpow radix2 (-60)); [|lra].
    change (- (70))%Z with (-10 + -60)%Z. rewrite bpow_plus. apply Rmult_le_compat_r; [apply bpow_ge_0|].
    change (bpow radix2 (-10)) with (/ 1024). lra. }
  assert (Q2 : bpow radix2 (-100) <= 1 / var).
  { unfold Rdiv. rewrite Rmult_1_l. change (-100)%Z with (- (100))%Z. rewrite bpow_opp. apply Rinv_le; [lra|].
    apply Rle_trans with (2 * bpow radix2 84); [lra|]. change 2 with (bpow radix2 1). rewrite <- bpow_plus.
    apply bpow_le. lia. }
  assert (One : is32 (@fone f64 F32Ops) 1) by (apply (ofZ32 1); reflexivity).
  assert (Q3 : Rabs (1 / var) <= bpow radix2 120).
  { rewrite Rabs_pos_eq by (pose proof (bpow_gt_0 radix2 (-100)); lra). eapply Rle_trans; [exact Q1|]. apply bpow_le. lia. }
  pose proof (div32 _ _ _ _ One Hvar ltac:(lra) Q3) as Hinv. fold (inverse_variance_single ds) in Hinv.
  destruct (rnd32_error (1 / var)) as (e2 & h2 & He2 & Hh2 & E2). change (bpow radix2 (-24)) with (/ 16777216) in He2.
  exists (rnd32 (1 / var)), d.
  assert (Hst : f64_is (to_single (inverse_variance_single ds)) (rnd32 (1 / var))).
  { destruct Hinv as [I1 I2]. rewrite <- (rnd32_id _ I2). apply to_single_is; [exact I1|].
    rewrite (rnd32_id _ I2). now apply single_format. }
  split; [exact Hst|]. split; [exact (proj2 Hinv)|]. split; [|split].
  - apply Rlt_le_trans with (bpow radix2 (-100)); [apply bpow_gt_0|].
    assert (S : single (bpow radix2 (-100))).
    { exists 1%Z, (-100)%Z. split; [ring|]. split; [reflexivity|lia]. }
    rewrite <- (rnd32_id _ S). apply round_le; [typeclasses eauto..|exact Q2].
  - unfold d. rewrite Emean, <- asum_abs. fold A.
    change (bpow radix2 (-23)) with (2 * / 16777216) || (assert (E23 : bpow radix2 (-23) = 2 * / 16777216) by (change (bpow radix2 (-23)) with (/ 8388608); lra); rewrite E23).
    assert (h <= bpow radix2 (-140)) by (apply bpow_le; lia). lra.
  - fold V. rewrite E2. set (I := 1 / var) in *.
    assert (EI : I * V - 1 = (V - var) * / var) by (unfold I; field; lra).
    assert (B1 : Rabs (I * V - 1) <= 109 / 100 * tau).
    { rewrite EI, Rabs_mult, (Rabs_pos_eq (/ var)) by lra. apply Rmult_le_reg_r with var; [lra|].
      rewrite Rmult_assoc, Rinv_l, Rmult_1_r by lra. rewrite Rabs_minus_sym. eapply Rle_trans; [exact VW|].
      assert (X : tau * (92 / 100 * V) <= tau * var) by (apply Rmult_le_compat_l; lra). 
      assert (0 <= tau * V) by (apply Rmult_le_pos; lra).
      replace (109 / 100 * tau * var) with (109 / 100 * (tau * var)) by ring. lra. }
    assert (IV : Rabs (I * V) <= 12 / 10).
    { replace (I * V) with ((I * V - 1) + 1) by ring. eapply Rle_trans; [apply Rabs_triang|]. rewrite Rabs_R1. lra. }
    assert (B2 : Rabs (h2 * V) <= / 16777216 / 10).
    { rewrite Rabs_mult, (Rabs_pos_eq V) by lra. apply Rle_trans with (bpow radix2 (-150) * bpow radix2 84).
      - apply Rmult_le_compat; try apply Rabs_pos; [lra|exact Hh2|exact VB].
      - rewrite <- bpow_plus. apply Rle_trans with (bpow radix2 (-30)); [apply bpow_le; lia|].
        change (bpow radix2 (-30)) with (/ 1073741824). lra. }
    replace ((I * (1 + e2) + h2) * V - 1) with ((I * V - 1) + (I * V * e2 + h2 * V)) by ring.
    eapply Rle_trans; [apply Rabs_triang|]. eapply Rle_trans; [apply Rplus_le_compat_l, Rabs_triang|].
    rewrite (Rabs_mult (I * V) e2).
    assert (B3 : Rabs (I * V) * Rabs e2 <= 12 / 10 * / 16777216) by (apply Rmult_le_compat; try apply Rabs_pos; assumption).
    assert (E23 : bpow radix2 (-23) = 2 * / 16777216) by (change (bpow radix2 (-23)) with (/ 8388608); lra).
    rewrite E23. unfold tau, g in *. lra.
Qed.
