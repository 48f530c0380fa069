(** The noise image of a single epoch image, computed on doubles and stored as singles. *)
From Coq Require Import ZArith List Bool Lia Reals Lra SpecFloat.
From Flocq Require Import Core BinarySingleNaN.
From Coq Require Import List.
From Verif Require Import Lib.Base Lib.Floats Lib.Float32 Model.Noise Spec.NoiseSpec
  Spec.FloatSpec Spec.Float32Spec Proofs.BaseFacts Proofs.F64Facts Proofs.RoundSum Proofs.CoaddF64
  Proofs.Float32Facts Proofs.NoiseProofs.
Import ListNotations.
Open Scope R_scope.

#[local] Instance Hprec : Prec_gt_0 53 := eq_refl _.
#[local] Instance Hmax : Prec_lt_emax 53 1024 := eq_refl _.
#[local] Instance fexp64_valid : Valid_exp fexp64 := fexp_correct 53 1024 _.
#[local] Instance fexp64_mono : Monotone_exp fexp64 := fexp_monotone 53 1024.

(** ** Square roots *)
Lemma SFsqrt_equiv (x : bf) : SFsqrt 53 1024 (B2SF x) = B2SF (Bsqrt mode_NE x).
Proof.
  destruct x as [s|s| |s m e B]; try reflexivity; try (now destruct s).
  destruct s; [reflexivity|]. simpl. rewrite B2SF_SF2B.
  set (melz := SFsqrt_core_binary _ _ _ _). case melz as [[mz ez] lz].
  apply binary_round_aux_equiv.
Qed.

Lemma sqrt_is x v : f64_is x v -> 0 <= v -> f64_is (SFsqrt 53 1024 x) (rnd (sqrt v)).
Proof.
  intros Hx Hv. apply f64_is_B in Hx as (b & -> & Fb & <-). rewrite SFsqrt_equiv.
  destruct (Bsqrt_correct 53 1024 _ _ mode_NE b) as (E & F & _). cbn [round_mode] in E. rewrite <- E.
  apply B_f64_is. rewrite F. destruct b as [s|s| |s m e B]; try discriminate Fb; [reflexivity|].
  destruct s; [|reflexivity]. exfalso. change (0 <= F2R (Float radix2 (Z.neg m) e)) in Hv.
  assert (F2R (Float radix2 (Z.neg m) e) < 0) by (apply F2R_lt_0; reflexivity). lra.
Qed.

Lemma close_sqrt k x y : 0 <= y -> close k x y -> close k (sqrt x) (sqrt y).
Proof.
  intros Hy (t & -> & H). pose proof (inv_pow_pos k). pose proof (pow_ge_1 k).
  exists (sqrt t). split; [apply sqrt_mult; lra|].
  destruct (Rle_or_lt 1 t) as [T|T].
  - assert (1 <= sqrt t) by (rewrite <- sqrt_1; apply sqrt_le_1; lra).
    assert (sqrt t * sqrt t = t) by (apply sqrt_sqrt; lra). split; [|nra].
    apply Rle_trans with (/ 1); [apply Rinv_le; lra|lra].
  - assert (P : 0 < sqrt t) by (apply sqrt_lt_R0; lra).
    assert (sqrt t <= 1) by (rewrite <- sqrt_1; apply sqrt_le_1; lra).
    assert (sqrt t * sqrt t = t) by (apply sqrt_sqrt; lra). split; [nra|lra].
Qed.

(** ** Weights that are not positive *)
Lemma zero_mul_is (x : f64) v : f64_is x v -> f64_is (fmul x (fofb (FO := F64Ops) false)) 0.
Proof.
  intros H. replace 0 with (rnd (v * 0)) by (rewrite Rmult_0_r; apply rnd_0).
  apply mul_is; [exact H|apply (f64_ofZ_is 0); lia|]. rewrite Rmult_0_r, Rabs_R0. apply bpow_ge_0.
Qed.

Lemma one_mul_is (x : f64) v : f64_is x v -> Rabs v <= bpow radix2 1000 ->
  f64_is (fmul x (fofb (FO := F64Ops) true)) v.
Proof.
  intros H B. rewrite <- (rnd_id v) by now apply (fmt_of x). rewrite <- (Rmult_1_r v) at 1.
  apply mul_is; [exact H|apply (f64_ofZ_is 1); lia|]. now rewrite Rmult_1_r.
Qed.

Lemma mul_comm_is (x y : f64) v : f64_is (fmul x y) v -> f64_is (fmul y x) v.
Proof.
  intros H. replace (fmul y x) with (fmul x y); [exact H|]. cbn. unfold SFmul.
  destruct x as [s|s| |s m e], y as [s'|s'| |s' m' e']; try reflexivity; rewrite (xorb_comm s s'); try reflexivity.
  now rewrite Pos.mul_comm, Z.add_comm.
Qed.

Lemma add_0_is (x y : f64) v w : f64_is x v -> f64_is y w -> v = 0 \/ w = 0 ->
  Rabs (v + w) <= bpow radix2 1000 -> f64_is (fadd x y) (v + w).
Proof.
  intros Hx Hy H B. rewrite <- (rnd_id (v + w)).
  - now apply add_is.
  - destruct H as [-> | ->]; rewrite ?Rplus_0_l, ?Rplus_0_r; eapply fmt_of; eassumption.
Qed.

(** The weight used at a pixel, before the scale is divided out. *)
Lemma used_weight (x m : f64) v w : f64_is x v -> f64_is m w -> Rabs v <= bpow radix2 1000 ->
  Rabs w <= bpow radix2 1000 ->
  f64_is (fadd (fmul x (fofb (FO := F64Ops) (negb (fleb x fzero)))) (fmul (fofb (FO := F64Ops) (fleb x fzero)) m))
    (if Rle_dec v 0 then w else v).
Proof.
  intros Hx Hm Bv Bw. assert (Z0 : f64_is (fzero : f64) 0) by (apply (f64_ofZ_is 0); lia).
  pose proof (f64_leb_is x fzero v 0 Hx Z0) as L. change (SFleb x fzero) with (fleb x fzero) in L.
  destruct (fleb x fzero), (Rle_dec v 0) as [D|D]; cbn [negb].
  - replace w with (0 + w) by ring. apply add_0_is; [now apply (zero_mul_is x v)| |now left|now rewrite Rplus_0_l].
    apply mul_comm_is. now apply one_mul_is.
  - exfalso. apply D. now apply L.
  - destruct L as [_ L]. discriminate (L D).
  - replace v with (v + 0) by ring. apply add_0_is; [now apply one_mul_is| |now right|now rewrite Rplus_0_r].
    apply mul_comm_is. now apply (zero_mul_is m w).
Qed.

(** ** One pixel *)
Lemma bp_le a b : (a <= b)%Z -> bpow radix2 a <= bpow radix2 b.
Proof. apply bpow_le. Qed.

Lemma close_range k x y a b : (k <= 8)%nat -> close k x y -> bpow radix2 a <= y <= bpow radix2 b ->
  bpow radix2 (a - 1) <= x <= bpow radix2 (b + 1).
Proof.
  intros Hk (t & -> & T) [A B]. unfold Zminus. rewrite !bpow_plus. change (bpow radix2 (-(1))) with (/ 2).
  change (bpow radix2 1) with 2. pose proof (bpow_gt_0 radix2 a).
  assert (U : INR k * uro <= / 2 * / 2).
  { apply Rle_trans with (INR 8 * uro); [apply Rmult_le_compat_r; [apply Rlt_le, uro_pos|now apply le_INR]|].
    unfold uro. change (INR 8) with (1 + 1 + 1 + 1 + 1 + 1 + 1 + 1).
    assert (bpow radix2 (-53) <= bpow radix2 (-5)) by (apply bpow_le; lia).
    change (bpow radix2 (-5)) with (/ 32) in *. lra. }
  pose proof (pow_bound k ltac:(lra)). pose proof (inv_pow_bound k ltac:(lra)).
  assert (/ 2 <= t <= 2) by lra. split; nra.
Qed.

Lemma noise_scale (x sc : f64) w s : f64_is x w -> f64_is sc s ->
  bpow radix2 (-100) <= w <= bpow radix2 100 -> bpow radix2 (-40) <= s <= bpow radix2 40 ->
  exists g, f64_is (fsqrt (fdiv fone (fdiv x (fmul sc sc)))) g /\ close 4 g (s / sqrt w).
Proof.
  intros Hx Hs Rw Rs. pose proof (bpow_gt_0 radix2 (-100)) as P1. pose proof (bpow_gt_0 radix2 (-40)) as P2.
  assert (Pw : 0 < w) by lra. assert (Ps : 0 < s) by lra.
  assert (R2 : bpow radix2 (-80) <= s * s <= bpow radix2 80).
  { replace (bpow radix2 (-80)) with (bpow radix2 (-40) * bpow radix2 (-40)) by (rewrite <- bpow_plus; reflexivity).
    replace (bpow radix2 80) with (bpow radix2 40 * bpow radix2 40) by (rewrite <- bpow_plus; reflexivity). split; apply Rmult_le_compat; lra. }
  assert (H2 : f64_is (fmul sc sc) (rnd (s * s))).
  { apply mul_is; try assumption. rewrite Rabs_pos_eq by nra. eapply Rle_trans; [apply R2|apply bp_le; lia]. }
  assert (C2 : close 1 (rnd (s * s)) (s * s)).
  { apply close_rnd. rewrite Rabs_pos_eq by nra. eapply Rle_trans; [|apply R2]. apply bp_le; lia. }
  pose proof (close_range 1 _ _ _ _ ltac:(lia) C2 R2) as R2'. change (-80 - 1)%Z with (-81)%Z in R2'. change (80 + 1)%Z with 81%Z in R2'.
  set (s2 := rnd (s * s)) in *. pose proof (bpow_gt_0 radix2 (-81)) as P3.
  assert (Ps2 : 0 < s2) by lra.
  assert (R3 : bpow radix2 (-181) <= w / s2 <= bpow radix2 181).
  { replace (bpow radix2 (-181)) with (bpow radix2 (-100) * / bpow radix2 81) by (rewrite <- bpow_opp, <- bpow_plus; reflexivity).
    replace (bpow radix2 181) with (bpow radix2 100 * / bpow radix2 (-81)) by (rewrite <- bpow_opp, <- bpow_plus; reflexivity).
    unfold Rdiv. split; apply Rmult_le_compat; try lra; try (apply Rlt_le, Rinv_0_lt_compat; first [lra|apply bpow_gt_0]);
      apply Rinv_le; lra || apply bpow_gt_0. }
  assert (P4 : 0 < w / s2) by now apply Rdiv_lt_0_compat.
  assert (H3 : f64_is (fdiv x (fmul sc sc)) (rnd (w / s2))).
  { apply div_is; try assumption; [lra|]. rewrite Rabs_pos_eq by lra. eapply Rle_trans; [apply R3|apply bp_le; lia]. }
  assert (C3 : close 1 (rnd (w / s2)) (w / s2)).
  { apply close_rnd. rewrite Rabs_pos_eq by lra. eapply Rle_trans; [|apply R3]. apply bp_le; lia. }
  pose proof (close_range 1 _ _ _ _ ltac:(lia) C3 R3) as R3'. change (-181 - 1)%Z with (-182)%Z in R3'.
  change (181 + 1)%Z with 182%Z in R3'.
  assert (K3 : close 2 (rnd (w / s2)) (w / (s * s))).
  { apply (close_trans 1 1 _ _ _ C3). apply (close_div 0 1); [apply close_refl|exact C2]. }
  set (q := rnd (w / s2)) in *. pose proof (bpow_gt_0 radix2 (-182)) as P5. assert (Pq : 0 < q) by lra.
  assert (R4 : bpow radix2 (-182) <= 1 / q <= bpow radix2 182).
  { unfold Rdiv. rewrite Rmult_1_l. 
    replace (bpow radix2 (-182)) with (/ bpow radix2 182) by (rewrite <- bpow_opp; reflexivity).
    replace (bpow radix2 182) with (/ bpow radix2 (-182)) at 2 by (rewrite <- bpow_opp; reflexivity).
    split; apply Rinv_le; lra. }
  assert (H4 : f64_is (fdiv fone (fdiv x (fmul sc sc))) (rnd (1 / q))).
  { apply div_is; [apply (f64_ofZ_is 1); lia|exact H3|lra|]. rewrite Rabs_pos_eq by lra.
    eapply Rle_trans; [apply R4|apply bp_le; lia]. }
  assert (C4 : close 1 (rnd (1 / q)) (1 / q)).
  { apply close_rnd. rewrite Rabs_pos_eq by lra. eapply Rle_trans; [|apply R4]. apply bp_le; lia. }
  assert (K4 : close 3 (rnd (1 / q)) (s * s / w)).
  { apply (close_trans 1 2 _ _ _ C4). replace (s * s / w) with (1 / (w / (s * s))) by (field; lra).
    apply (close_div 0 2); [apply close_refl|exact K3]. }
  pose proof (close_range 1 _ _ _ _ ltac:(lia) C4 R4) as R4'. change (-182 - 1)%Z with (-183)%Z in R4'.
  set (i := rnd (1 / q)) in *. pose proof (bpow_gt_0 radix2 (-183)) as P6. assert (Pi : 0 < i) by lra.
  exists (rnd (sqrt i)). split; [apply sqrt_is; [exact H4|lra]|].
  assert (Q : s / sqrt w = sqrt (s * s / w)).
  { unfold Rdiv. rewrite sqrt_mult by (try nra; apply Rlt_le, Rinv_0_lt_compat; assumption).
    rewrite sqrt_square by lra. now rewrite sqrt_inv. }
  rewrite Q. apply (close_trans 1 3 _ (sqrt i)).
  - apply close_rnd. rewrite Rabs_pos_eq by apply sqrt_pos.
    apply Rle_trans with (sqrt (bpow radix2 (-92) * bpow radix2 (-92))).
    + rewrite sqrt_square by apply bpow_ge_0. apply bp_le. lia.
    + apply sqrt_le_1; [apply Rmult_le_pos; apply bpow_ge_0|lra|]. rewrite <- bpow_plus.
      eapply Rle_trans; [|apply R4']. apply bp_le. lia.
  - apply close_sqrt; [|exact K4]. apply Rlt_le, Rdiv_lt_0_compat; nra.
Qed.

Lemma noise_pixel (d x sc : f64) n w s : f64_is d n -> f64_is x w -> f64_is sc s -> Rabs n <= bpow radix2 10 ->
  bpow radix2 (-100) <= w <= bpow radix2 100 -> bpow radix2 (-40) <= s <= bpow radix2 40 ->
  exists v, f64_is (to_single (fmul d (fsqrt (fdiv fone (fdiv x (fmul sc sc)))))) v /\ single v /\
    Rabs (v - n * (s / sqrt w)) <= bpow radix2 (-23) * Rabs (n * (s / sqrt w)) + bpow radix2 (-149).
Proof.
  intros Hd Hx Hs Bn Rw Rs. destruct (noise_scale x sc w s Hx Hs Rw Rs) as (g & Hg & Cg).
  pose proof (bpow_gt_0 radix2 (-100)) as P1. pose proof (bpow_gt_0 radix2 (-40)) as P2.
  assert (Pw : 0 < w) by lra. assert (Ps : 0 < s) by lra. assert (Pr : 0 < sqrt w) by now apply sqrt_lt_R0.
  set (T := s / sqrt w) in *. assert (PT : 0 < T) by now apply Rdiv_lt_0_compat.
  assert (BT : T <= bpow radix2 90).
  { unfold T, Rdiv. change 90%Z with (40 + - (-50))%Z. rewrite bpow_plus, bpow_opp.
    apply Rmult_le_compat; [lra|apply Rlt_le, Rinv_0_lt_compat; lra|apply Rs|].
    apply Rinv_le; [apply bpow_gt_0|]. rewrite <- (sqrt_square (bpow radix2 (-50))) by apply bpow_ge_0.
    apply sqrt_le_1; [apply Rmult_le_pos; apply bpow_ge_0|lra|]. rewrite <- bpow_plus. apply Rw. }
  assert (E1 : Rabs (g - T) <= bpow radix2 (-50) * T).
  { pose proof (close_bound 4 g T) as C. rewrite (Rabs_pos_eq T) in C by lra.
    eapply Rle_trans; [apply C; [|exact Cg]|].
    - unfold uro. assert (bpow radix2 (-53) <= bpow radix2 (-5)) by (apply bpow_le; lia).
      change (bpow radix2 (-5)) with (/ 32) in *. change (INR 4) with (1 + 1 + 1 + 1). lra.
    - apply Rmult_le_compat_r; [lra|]. replace (INR 4) with (bpow radix2 2) by (change (bpow radix2 2) with 4; cbn; lra).
      rewrite <- bpow_plus. right. reflexivity. }
  set (D := n * T). set (xx := n * g).
  assert (A1 : Rabs (xx - D) <= bpow radix2 (-50) * Rabs D).
  { unfold xx, D. rewrite <- Rmult_minus_distr_l, !Rabs_mult, (Rabs_pos_eq T) by lra.
    pose proof (Rabs_pos n). nra. }
  assert (BD : Rabs D <= bpow radix2 100).
  { unfold D. rewrite Rabs_mult, (Rabs_pos_eq T) by lra. change 100%Z with (10 + 90)%Z. rewrite bpow_plus.
    apply Rmult_le_compat; try lra. apply Rabs_pos. }
  assert (K50 : bpow radix2 (-50) <= bpow radix2 (-24) / 8).
  { change (bpow radix2 (-24) / 8) with (bpow radix2 (-24) * bpow radix2 (-3)). rewrite <- bpow_plus. apply bp_le. lia. }
  assert (Ku : uro <= bpow radix2 (-24) / 16).
  { unfold uro. change (bpow radix2 (-24) / 16) with (bpow radix2 (-24) * bpow radix2 (-4)). rewrite <- bpow_plus. apply bp_le. lia. }
  assert (K24 : bpow radix2 (-24) <= / 16) by (change (/ 16) with (bpow radix2 (-4)); apply bp_le; lia).
  assert (K23 : bpow radix2 (-23) = 2 * bpow radix2 (-24)).
  { change (-23)%Z with (1 + -24)%Z. now rewrite bpow_plus. }
  assert (Kh : bpow radix2 (-1075) <= bpow radix2 (-150) / 4).
  { change (bpow radix2 (-150) / 4) with (bpow radix2 (-150) * bpow radix2 (-2)). rewrite <- bpow_plus. apply bp_le. lia. }
  assert (K149 : bpow radix2 (-149) = 2 * bpow radix2 (-150)).
  { change (-149)%Z with (1 + -150)%Z. now rewrite bpow_plus. }
  assert (K102 : 2 * bpow radix2 100 = bpow radix2 101).
  { change 101%Z with (1 + 100)%Z. now rewrite bpow_plus. }
  pose proof (bpow_gt_0 radix2 (-24)) as G24. pose proof (bpow_gt_0 radix2 (-150)) as G150.
  pose proof (Rabs_pos D) as AD. pose proof uro_pos as Up.
  assert (Bx : Rabs xx <= 2 * Rabs D).
  { replace xx with ((xx - D) + D) by ring. eapply Rle_trans; [apply Rabs_triang|]. nra. }
  assert (Bx' : Rabs xx <= bpow radix2 101) by lra.
  assert (Hy : f64_is (fmul d (fsqrt (fdiv fone (fdiv x (fmul sc sc))))) (rnd xx)).
  { apply mul_is; try assumption. eapply Rle_trans; [exact Bx'|apply bp_le; lia]. }
  destruct (rnd_error_gen xx) as (e1 & h1 & He1 & Hh1 & Ey).
  assert (Ae1 : Rabs e1 <= uro) by (pose proof err_le_uro; lra).
  set (y := rnd xx) in *.
  assert (A2 : Rabs (y - xx) <= uro * Rabs xx + bpow radix2 (-1075)).
  { rewrite Ey. replace (xx * (1 + e1) + h1 - xx) with (e1 * xx + h1) by ring.
    eapply Rle_trans; [apply Rabs_triang|]. rewrite Rabs_mult. pose proof (Rabs_pos xx). nra. }
  assert (By : Rabs y <= bpow radix2 120).
  { apply double_small. eapply Rle_trans; [exact Bx'|apply bp_le; lia]. }
  assert (Bv : Rabs (rnd32 y) < bpow radix2 128).
  { eapply Rle_lt_trans; [now apply single_small|apply bpow_lt; lia]. }
  exists (rnd32 y). split; [now apply to_single_is|]. split; [now apply rnd32_single|].
  destruct (rnd32_error y) as (e2 & h2 & He2 & Hh2 & Ev).
  assert (A3 : Rabs (rnd32 y - y) <= bpow radix2 (-24) * Rabs y + bpow radix2 (-150)).
  { rewrite Ev. replace (y * (1 + e2) + h2 - y) with (e2 * y + h2) by ring.
    eapply Rle_trans; [apply Rabs_triang|]. rewrite Rabs_mult. pose proof (Rabs_pos y). nra. }
  assert (Y1 : Rabs y <= Rabs (y - xx) + Rabs (xx - D) + Rabs D).
  { replace y with ((y - xx) + (xx - D) + D) at 1 by ring.
    eapply Rle_trans; [apply Rabs_triang|]. apply Rplus_le_compat_r, Rabs_triang. }
  assert (V1 : Rabs (rnd32 y - D) <= Rabs (rnd32 y - y) + Rabs (y - xx) + Rabs (xx - D)).
  { replace (rnd32 y - D) with ((rnd32 y - y) + (y - xx) + (xx - D)) by ring.
    eapply Rle_trans; [apply Rabs_triang|]. apply Rplus_le_compat_r, Rabs_triang. }
  fold D. rewrite K23, K149. revert V1 Y1 A3 A2 A1 Bx. clear - K50 Ku K24 Kh G24 G150 AD Up.
  generalize (Rabs (rnd32 y - D)) (Rabs (rnd32 y - y)) (Rabs (y - xx)) (Rabs (xx - D)) (Rabs y) (Rabs xx).
  revert K50 Ku K24 Kh G24 G150 AD Up.
  generalize (bpow radix2 (-50)) (bpow radix2 (-24)) (bpow radix2 (-150)) (bpow radix2 (-1075)) uro (Rabs D).
  intros k50 a b h u A K50 Ku K24 Kh G24 G150 AD Up V p q r Y X V1 Y1 A3 A2 A1 Bx.
  assert (I1 : r <= a / 8 * A) by nra.
  assert (I2 : q <= a / 8 * A + h) by nra.
  assert (I3 : a * A <= / 16 * A) by nra.
  assert (I4 : Y <= (1 + / 16) * A + h) by lra.
  assert (I5 : a * Y <= (1 + / 16) * (a * A) + a * h) by nra.
  assert (I6 : a * h <= b / 4) by nra.
  assert (0 <= a * A) by nra.
  lra.
Qed.

(** ** The image *)
Lemma epoch_noise_double (normal : Z -> Z -> f64) (wgt : img f64) (scale : f64) (seed : Z)
  (nv : Z -> R) (wv : Z -> Z -> R) (s : R) :
  wf wgt ->
  (forall r c, inb wgt r c -> f64_is (px wgt r c) (wv r c) /\
     (- bpow radix2 100 <= wv r c <= 0 \/ bpow radix2 (-100) <= wv r c <= bpow radix2 100)) ->
  f64_is scale s -> bpow radix2 (-40) <= s <= bpow radix2 40 ->
  (forall k, (0 <= k < nrows wgt * ncols wgt)%Z -> f64_is (normal seed k) (nv k) /\ Rabs (nv k) <= bpow radix2 10) ->
  ((forall r c, inb wgt r c -> wv r c <= 0) ->
   get_noise_image normal to_single wgt scale seed = Raise ValueError) /\
  (forall r0 c0, inb wgt r0 c0 -> wv r0 c0 > 0 ->
   exists im m,
   get_noise_image normal to_single wgt scale seed = Ok im /\
   nrows im = nrows wgt /\ ncols im = ncols wgt /\
   (exists r c, inb wgt r c /\ wv r c = m) /\
   (forall r c, inb wgt r c -> wv r c <= m) /\
   forall r c, inb wgt r c ->
     let t := nv (draw_pos (nrows wgt) (ncols wgt) 1024 1024 r c)
              * (s / sqrt (if Rle_dec (wv r c) 0 then m else wv r c)) in
     exists v, f64_is (px im r c) v /\ single v /\
       Rabs (v - t) <= bpow radix2 (-23) * Rabs t + bpow radix2 (-149)).
Proof.
  intros Hwf Hw Hs Rs Hn. unfold get_noise_image.
  assert (Z0 : f64_is (fzero : f64) 0) by (apply (f64_ofZ_is 0); lia).
  set (l := filter _ (ravel wgt)).
  assert (Lw : forall r c, inb wgt r c -> fleb (px wgt r c) fzero = true <-> wv r c <= 0).
  { intros r c Hb. apply f64_leb_is; [apply Hw, Hb|exact Z0]. }
  assert (Hl : forall x, In x l <-> exists r c, inb wgt r c /\ px wgt r c = x /\ 0 < wv r c).
  { intros x. unfold l. rewrite filter_In, In_ravel. split.
    - intros ((r & c & Hb & <-) & N). exists r, c. split; [exact Hb|]. split; [reflexivity|].
      specialize (Lw r c Hb). destruct (fleb (px wgt r c) fzero); [discriminate|].
      destruct (Rle_or_lt (wv r c) 0) as [K|K]; [|exact K]. destruct Lw as [_ Lw]. discriminate (Lw K).
    - intros (r & c & Hb & <- & K). split; [eauto|]. specialize (Lw r c Hb).
      destruct (fleb (px wgt r c) fzero); [|reflexivity]. destruct Lw as [Lw _]. specialize (Lw eq_refl). lra. }
  split.
  - intros Hz. destruct l as [|x l'] eqn:E; [reflexivity|]. exfalso.
    destruct (proj1 (Hl x) ltac:(now left)) as (r & c & Hb & _ & K). pose proof (Hz r c Hb). lra.
  - intros r0 c0 Hb0 Hp0.
    assert (In0 : In (px wgt r0 c0) l) by (apply Hl; eauto).
    assert (HF : Forall2 f64_is l (map f64_val l)).
    { clear In0. induction l as [|x l' IH] eqn:E0 in Hl |- *; [constructor|].
      assert (G : forall y, In y (x :: l') -> f64_is y (f64_val y)).
      { intros y Hy. apply Hl in Hy as (r & c & Hb & <- & _). destruct (Hw r c Hb) as [H _].
        destruct H as (A & B & C). repeat split; assumption. }
      clear - G. revert G. generalize (x :: l'). intros k. induction k as [|y k IH]; intros G; cbn; constructor.
      - apply G. now left.
      - apply IH. intros z Hz. apply G. now right. }
    destruct l as [|x l'] eqn:El; [destruct In0|]. cbn [map] in HF. inversion HF as [|? ? ? ? Hx HF']; subst.
    destruct (amax_is l' _ HF' x _ Hx) as (mv & Hm & Hin & Hle). cbn [np_max bind].
    set (mx := fold_left fmax l' x) in *.
    assert (Vw : forall r c, inb wgt r c -> f64_val (px wgt r c) = wv r c).
    { intros r c Hb. destruct (Hw r c Hb) as [(_ & _ & C) _]. exact C. }
    assert (Hat : exists r c, inb wgt r c /\ wv r c = mv /\ 0 < mv).
    { change (f64_val x :: map f64_val l') with (map f64_val (x :: l')) in Hin.
      apply in_map_iff in Hin as (y & Ey & Hy). apply Hl in Hy as (r & c & Hb & <- & K).
      exists r, c. rewrite <- Ey, Vw by exact Hb. auto. }
    destruct Hat as (rm & cm & Hbm & Em & Pm).
    assert (Bm : bpow radix2 (-100) <= mv <= bpow radix2 100).
    { destruct (Hw rm cm Hbm) as [_ [K|K]]; rewrite Em in K; [lra|exact K]. }
    set (weight := imap2 _ wgt _).
    destruct (noise_image_spec normal to_single seed weight None 1024 1024 ltac:(lia) ltac:(lia) Hwf)
      as (im & E & E1 & E2 & E3).
    rewrite E. cbn [bind]. exists im, mv.
    split; [reflexivity|]. split; [exact E1|]. split; [exact E2|]. split; [eauto|]. split.
    { intros r c Hb. destruct (Rle_or_lt (wv r c) 0) as [K|K]; [lra|].
      rewrite <- Vw by exact Hb. apply Hle. change (In (f64_val (px wgt r c)) (map f64_val (x :: l'))).
      apply in_map. apply Hl. eauto. }
    intros r c Hb. rewrite E3 by exact Hb. unfold noise_px.
    change (nrows weight) with (nrows wgt). change (ncols weight) with (ncols wgt).
    destruct (Hn (draw_pos (nrows wgt) (ncols wgt) 1024 1024 r c)) as [Hd Bd].
    { destruct Hb. apply draw_range; lia. }
    cbn [zwgt]. destruct (Hw r c Hb) as [Hx1 Rx1].
    assert (B1000 : bpow radix2 100 <= bpow radix2 1000) by (apply bp_le; lia).
    pose proof (bpow_gt_0 radix2 (-100)) as P100.
    assert (U : f64_is (fadd (fmul (px wgt r c) (fofb (FO := F64Ops) (negb (fleb (px wgt r c) fzero))))
                          (fmul (fofb (FO := F64Ops) (fleb (px wgt r c) fzero)) mx))
                  (if Rle_dec (wv r c) 0 then mv else wv r c)).
    { apply used_weight; try assumption; apply Rabs_le; lra. }
    apply (noise_pixel _ _ scale _ _ s Hd U Hs Bd); [|exact Rs].
    destruct (Rle_dec (wv r c) 0); [exact Bm|]. destruct Rx1; lra.
Qed.
