(** The width of an image in double precision. *)
From Coq Require Import ZArith List Bool Lia Reals Lra SpecFloat.
From Flocq Require Import Core BinarySingleNaN Plus_error.
From Coq Require Import List.
From Verif Require Import Lib.Base Lib.Floats Model.Fwhm Spec.FloatSpec Spec.CoaddSpec Spec.FwhmSpec
  Proofs.BaseFacts Proofs.F64Facts Proofs.RoundSum Proofs.CoaddF64 Proofs.LanczosF64 Proofs.NoiseF64
  Proofs.FwhmProofs.
Import ListNotations.
Open Scope R_scope.

#[local] Instance Hprec : Prec_gt_0 53 := eq_refl _.
#[local] Instance Hmax : Prec_lt_emax 53 1024 := eq_refl _.
#[local] Instance fexp64_valid : Valid_exp fexp64 := fexp_correct 53 1024 _.
#[local] Instance fexp64_mono : Monotone_exp fexp64 := fexp_monotone 53 1024.

Lemma half_is : f64_is (fhalf : f64) (1 / 2).
Proof.
  replace (1 / 2) with (rnd (IZR 1 / IZR 2)) by (apply rnd_id, (half_format 1); cbn; lia).
  apply div_is; [apply (f64_ofZ_is 1); lia|apply (f64_ofZ_is 2); lia|lra|].
  rewrite Rabs_pos_eq by lra. apply Rle_trans with (bpow radix2 0); [cbn; lra|apply bpow_le; lia].
Qed.

Lemma one_is : f64_is (fone : f64) 1.
Proof. apply (f64_ofZ_is 1). lia. Qed.

Lemma uro_small : uro <= / 1073741824.
Proof. unfold uro. apply Rle_trans with (bpow radix2 (-30)); [apply bpow_le; lia|right; reflexivity]. Qed.

(** ** The argument of the error function at one pixel *)
Definition pixel_arg (v m s : R) : R := rnd (rnd (rnd (v / m) - 1 / 2) / s).

Lemma arg_is (x mx sm : f64) v m s : f64_is x v -> f64_is mx m -> f64_is sm s ->
  Rabs v <= bpow radix2 100 -> bpow radix2 (-100) <= m -> bpow radix2 (-20) <= s <= bpow radix2 20 ->
  f64_is (fdiv (fsub (fdiv x mx) fhalf) sm) (pixel_arg v m s) /\
  Rabs (pixel_arg v m s - (v / m - 1 / 2) / s) <= bpow radix2 (-51) * ((Rabs (v / m) + 1) / s).
Proof.
  intros Hx Hm Hs Bv Bm Bs. unfold pixel_arg.
  pose proof (bpow_gt_0 radix2 (-100)). pose proof (bpow_gt_0 radix2 (-20)).
  assert (Pm : 0 < m) by lra. assert (Ps : 0 < s) by lra.
  set (q := v / m). assert (Bq : Rabs q <= bpow radix2 200).
  { unfold q, Rdiv. rewrite Rabs_mult, (Rabs_pos_eq (/ m)) by (apply Rlt_le, Rinv_0_lt_compat; lra).
    change 200%Z with (100 + - (-100))%Z. rewrite bpow_plus, bpow_opp.
    apply Rmult_le_compat; [apply Rabs_pos|apply Rlt_le, Rinv_0_lt_compat; lra|exact Bv|apply Rinv_le; lra]. }
  pose proof (rnd_abs q) as E1. pose proof uro_pos as U. pose proof uro_small as U1.
  set (X := Rabs q + 1). assert (X1 : 1 <= X) by (unfold X; pose proof (Rabs_pos q); lra).
  assert (BX : X <= bpow radix2 201).
  { unfold X. change 201%Z with (200 + 1)%Z. rewrite bpow_plus. change (bpow radix2 1) with 2.
    assert (G1 : 1 <= bpow radix2 200) by (apply (bpow_le radix2 0); lia). lra. }
  assert (E1' : Rabs (rnd q - q) <= uro * X).
  { eapply Rle_trans; [exact E1|]. apply Rmult_le_compat_l; [lra|]. unfold X. lra. }
  assert (H1 : f64_is (fdiv x mx) (rnd q)).
  { apply div_is; try assumption; [lra|]. eapply Rle_trans; [exact Bq|apply bpow_le; lia]. }
  set (q' := rnd q) in *.
  assert (Bq' : Rabs (q' - 1 / 2) <= X + uro * X).
  { replace (q' - 1 / 2) with (q + (q' - q) + - (1 / 2)) by ring.
    eapply Rle_trans; [apply Rabs_triang|]. rewrite Rabs_Ropp, (Rabs_pos_eq (1 / 2)) by lra.
    pose proof (Rabs_triang q (q' - q)). unfold X in *. lra. }
  assert (uX : uro * X <= / 1073741824 * X) by (apply Rmult_le_compat_r; lra).
  assert (L1 : X + uro * X <= bpow radix2 202).
  { change 202%Z with (201 + 1)%Z. rewrite bpow_plus. change (bpow radix2 1) with 2. lra. }
  assert (H2 : f64_is (fsub (fdiv x mx) fhalf) (rnd (q' - 1 / 2))).
  { apply sub_is; [exact H1|exact half_is|]. eapply Rle_trans; [exact Bq'|].
    eapply Rle_trans; [exact L1|apply bpow_le; lia]. }
  pose proof (rnd_abs (q' - 1 / 2)) as E2. set (r := rnd (q' - 1 / 2)) in *.
  assert (uu : uro * uro <= / 1073741824 * uro) by (apply Rmult_le_compat_r; lra).
  assert (uXX : uro <= uro * X) by (rewrite <- (Rmult_1_r uro) at 1; apply Rmult_le_compat_l; lra).
  assert (E2' : Rabs (r - (q - 1 / 2)) <= 2.001 * (uro * X)).
  { replace (r - (q - 1 / 2)) with ((r - (q' - 1 / 2)) + (q' - q)) by ring.
    eapply Rle_trans; [apply Rabs_triang|].
    assert (Rabs (r - (q' - 1 / 2)) <= 1.001 * (uro * X)); [|lra].
    eapply Rle_trans; [exact E2|].
    assert (uro * (Rabs (q' - 1 / 2) + uro) <= uro * (X + 2 * / 1073741824 * X)).
    { apply Rmult_le_compat_l; [lra|]. lra. }
    nra. }
  assert (Br : Rabs r <= 1.001 * X).
  { replace r with ((q + - (1 / 2)) + (r - (q - 1 / 2))) by ring. eapply Rle_trans; [apply Rabs_triang|].
    pose proof (Rabs_triang q (- (1 / 2))) as T. rewrite Rabs_Ropp, (Rabs_pos_eq (1 / 2)) in T by lra.
    unfold X in *. lra. }
  assert (Is : 0 < / s) by now apply Rinv_0_lt_compat.
  assert (Is2 : / s <= bpow radix2 20).
  { rewrite <- (Rinv_inv (bpow radix2 20)). apply Rinv_le; [apply Rinv_0_lt_compat, bpow_gt_0|].
    rewrite <- bpow_opp. apply Bs. }
  assert (Is3 : bpow radix2 (-20) <= / s).
  { change (-20)%Z with (- (20))%Z. rewrite bpow_opp. apply Rinv_le; lra. }
  assert (Brs : Rabs (r / s) <= 1.001 * (X / s)).
  { unfold Rdiv. rewrite Rabs_mult, (Rabs_pos_eq (/ s)) by lra. nra. }
  assert (H3 : f64_is (fdiv (fsub (fdiv x mx) fhalf) sm) (rnd (r / s))).
  { apply div_is; try assumption; [lra|]. eapply Rle_trans; [exact Brs|].
    apply Rle_trans with (bpow radix2 1 * (bpow radix2 201 * bpow radix2 20)).
    - change (bpow radix2 1) with 2. assert (X / s <= bpow radix2 201 * bpow radix2 20) by (unfold Rdiv; apply Rmult_le_compat; lra).
      assert (0 <= X / s) by (unfold Rdiv; apply Rmult_le_pos; lra). lra.
    - rewrite <- !bpow_plus. apply bpow_le. lia. }
  split; [exact H3|]. pose proof (rnd_abs (r / s)) as E3.
  assert (K51 : bpow radix2 (-51) = 4 * uro).
  { unfold uro. replace (-51)%Z with (2 + -53)%Z by lia. rewrite bpow_plus. reflexivity. }
  rewrite K51. replace ((Rabs q + 1) / s) with (X / s) by reflexivity.
  replace (rnd (r / s) - (q - 1 / 2) / s) with ((rnd (r / s) - r / s) + (r - (q - 1 / 2)) / s) by (unfold Rdiv; ring).
  eapply Rle_trans; [apply Rabs_triang|].
  assert (A1 : Rabs ((r - (q - 1 / 2)) / s) <= 2.001 * (uro * (X / s))).
  { unfold Rdiv at 1. rewrite Rabs_mult, (Rabs_pos_eq (/ s)) by lra. unfold Rdiv. nra. }
  assert (K20 : uro <= / 1000 * bpow radix2 (-20)).
  { unfold uro. apply Rle_trans with (bpow radix2 (-10) * bpow radix2 (-20)); [rewrite <- bpow_plus; apply bpow_le; lia|].
    apply Rmult_le_compat_r; [lra|]. change (bpow radix2 (-10)) with (/ 1024). lra. }
  assert (XS : bpow radix2 (-20) <= X / s) by (unfold Rdiv; nra).
  assert (A2 : uro * (Rabs (r / s) + uro) <= uro * (1.002 * (X / s))).
  { apply Rmult_le_compat_l; lra. }
  assert (A3 : 0 <= uro * (X / s)) by (apply Rmult_le_pos; lra).
  set (Y := X / s) in *. clearbody Y.
  pose proof (Rle_trans _ _ _ E3 A2) as E4. lra.
Qed.

(** ** How much of a pixel counts *)
Lemma part_is (x : f64) e : f64_is x e -> -1 <= e <= 1 ->
  exists y, f64_is (fmul fhalf (fadd fone x)) y /\ close 2 y ((1 + e) / 2) /\ 0 <= y.
Proof.
  intros Hx B. pose proof (fmt_of _ _ Hx) as Fe. pose proof (fmt_of _ _ one_is) as F1.
  assert (K : 2 <= bpow radix2 1000) by (apply Rle_trans with (bpow radix2 1); [right; reflexivity|apply bpow_le; lia]).
  assert (H1 : f64_is (fadd fone x) (rnd (1 + e))).
  { apply add_is; [exact one_is|exact Hx|]. rewrite Rabs_pos_eq; lra. }
  pose proof (close_add_rnd 1 e F1 Fe) as C1. set (y := rnd (1 + e)) in *.
  assert (Py : 0 <= y) by (apply (close_nonneg _ _ _ C1); lra).
  assert (By : y <= 2).
  { replace 2 with (rnd 2). { apply round_le; [typeclasses eauto..|lra]. }
    apply rnd_id. replace 2 with (IZR 4 / 2) by lra. apply half_format. cbn. lia. }
  exists (rnd (1 / 2 * y)). split.
  { apply mul_is; [exact half_is|exact H1|]. rewrite Rabs_pos_eq; lra. }
  destruct (Req_dec y 0) as [Z|NZ].
  - assert (E0 : 1 + e = 0).
    { destruct C1 as (t & E & T). rewrite Z in E. symmetry in E. apply Rmult_integral in E as [E|E]; [exact E|].
      exfalso. pose proof (inv_pow_pos 1). lra. }
    rewrite Z, E0, Rmult_0_r, rnd_0. split; [|lra]. exists 1. pose proof (pow_ge_1 2). pose proof (inv_pow_pos 2).
    split; [lra|]. split; [|lra]. apply Rle_trans with (/ 1); [apply Rinv_le; lra|lra].
  - assert (G : bpow radix2 (-53) <= Rabs y).
    { unfold y. apply (round_FLT_plus_ge radix2 ZnearestE (-1074)%Z 53%Z 1 e (-53)%Z).
      - exact F1.
      - exact Fe.
      - rewrite Rabs_pos_eq by lra. cbn. lra.
      - exact NZ. }
    rewrite Rabs_pos_eq in G by lra.
    assert (C2 : close 1 (rnd (1 / 2 * y)) (1 / 2 * y)).
    { apply close_rnd. rewrite Rabs_pos_eq by lra.
      apply Rle_trans with (bpow radix2 (-1) * bpow radix2 (-53)); [rewrite <- bpow_plus; apply bpow_le; lia|].
      change (bpow radix2 (-1)) with (/ 2). lra. }
    split; [|apply (close_nonneg _ _ _ C2); lra].
    apply (close_trans 1 1 _ _ _ C2). replace ((1 + e) / 2) with (1 / 2 * (1 + e)) by lra.
    apply (close_mult 0 1); [apply close_refl|exact C1].
Qed.

Lemma parts_are (erf : f64 -> f64) (E : R -> R) : (forall x v, f64_is x v -> f64_is (erf x) (E v) /\ -1 <= E v <= 1) ->
  forall xs args, Forall2 f64_is xs args ->
  exists ys, Forall2 f64_is (map (fun x => fmul fhalf (fadd fone (erf x))) xs) ys /\ Forall (fun y => 0 <= y) ys /\
    close 2 (rsum ys) (rsum (map (fun a => (1 + E a) / 2) args)) /\
    Forall (fun v => 0 <= v <= 1) (map (fun a => (1 + E a) / 2) args).
Proof.
  intros He. induction 1 as [|x a xs args Hx _ IH].
  - exists []. cbn. repeat split; try constructor. apply (close_weaken 0); [lia|apply close_refl].
  - destruct IH as (ys & H1 & H2 & H3 & H4). destruct (He x a Hx) as (H5 & B).
    destruct (part_is _ _ H5 B) as (y & Hy & Cy & Py).
    exists (y :: ys). cbn [map rsum]. split; [now constructor|]. split; [now constructor|].
    split; [|constructor; [lra|exact H4]].
    apply close_plus; try assumption; [lra|]. apply rsum_nonneg. eapply Forall_impl; [|exact H4]. cbv beta. intros; lra.
Qed.

Lemma rsum_ge l : Forall (fun v => 0 <= v <= 1) l -> forall v, In v l -> v <= rsum l.
Proof.
  induction 1 as [|x l Hx H IH]; intros v Hv; [destruct Hv|]. cbn [rsum].
  assert (0 <= rsum l) by (apply rsum_nonneg; eapply Forall_impl; [|exact H]; cbv beta; intros; lra).
  destruct Hv as [->|Hv]; [lra|]. specialize (IH v Hv). lra.
Qed.

Lemma rsum_le_len l : Forall (fun v => 0 <= v <= 1) l -> rsum l <= INR (length l).
Proof.
  induction 1 as [|x l Hx H IH]; [cbn; lra|]. cbn [rsum length]. rewrite S_INR. lra.
Qed.

(** ** The whole function *)
Lemma INR_18 n : (Z.of_nat n <= 2 ^ 18)%Z -> INR n <= 262144.
Proof. intros H. rewrite INR_IZR_INZ. change 262144 with (IZR (2 ^ 18)). now apply IZR_le. Qed.

Section Width.
Variables (erf : f64 -> f64) (E : R -> R).
Hypothesis He : forall x v, f64_is x v -> f64_is (erf x) (E v) /\ -1 <= E v <= 1.
Hypothesis He0 : forall v, 0 <= v -> 0 <= E v.
Variables (pi : f64) (p : R).
Hypothesis Hpi : f64_is pi p.
Hypothesis Rp : 2 <= p <= 4.
Variables (smooth : f64) (s : R).
Hypothesis Hs : f64_is smooth s.
Hypothesis Rs : bpow radix2 (-20) <= s <= bpow radix2 20.

Lemma fwhm_f64 (image : img f64) values m : Forall2 f64_is (ravel image) values ->
  (Z.of_nat (length values) <= 2 ^ 18)%Z ->
  Forall (fun v => Rabs v <= bpow radix2 100) values -> largest values m -> bpow radix2 (-100) <= m ->
  exists x w, let args := map (fun v => pixel_arg v m s) values in
    measure_fwhm erf pi image smooth = Ok x /\ f64_is x w /\
    close (length values + 5) w (disc_diameter p (total (map (fun a => (1 + E a) / 2) args))) /\
    1 / 2 <= total (map (fun a => (1 + E a) / 2) args) <= INR (length values) /\
    Forall2 (fun v a => Rabs (a - (v / m - 1 / 2) / s) <= bpow radix2 (-51) * ((Rabs (v / m) + 1) / s)) values args.
Proof.
  intros Hv Hn Bv Hm Bm. set (args := map (fun v => pixel_arg v m s) values).
  pose proof (bpow_gt_0 radix2 (-100)) as P100. assert (Pm : 0 < m) by lra.
  pose proof (bpow_gt_0 radix2 (-20)) as P20. assert (Ps : 0 < s) by lra.
  assert (MX : exists mx, image_max image = Ok mx /\ f64_is mx m).
  { unfold image_max. destruct Hv as [|x v xs vs Hx Hxs]; [destruct Hm as [[] _]|].
    destruct (amax_is xs vs Hxs x v Hx) as (m' & I & L). eexists. split; [reflexivity|].
    replace m with m'; [exact I|]. destruct L as [L1 L2], Hm as [M1 M2]. apply Rle_antisym; auto. }
  destruct MX as (mx & EX & HX). unfold measure_fwhm. rewrite EX. cbn [bind]. rewrite !ravel_imap.
  rewrite !map_map.
  assert (Ha : Forall2 f64_is (map (fun x => fdiv (fsub (fdiv x mx) fhalf) smooth) (ravel image)) args /\
    Forall2 (fun v a => Rabs (a - (v / m - 1 / 2) / s) <= bpow radix2 (-51) * ((Rabs (v / m) + 1) / s)) values args).
  { clear EX Hm Hn. unfold args. clear args. induction Hv as [|x v xs vs Hx _ IH]; [split; constructor|].
    inversion Bv as [|? ? B1 B2]; subst. destruct (IH B2) as [I1 I2].
    destruct (arg_is x mx smooth v m s Hx HX Hs B1 Bm Rs) as [A1 A2]. split; cbn [map]; now constructor. }
  destruct Ha as [Ha Da].
  destruct (parts_are erf E He _ _ Ha) as (ys & H1 & H2 & H3 & H4). rewrite map_map in H1.
  set (parts := map (fun a => (1 + E a) / 2) args) in *.
  pose proof (F2_len _ _ _ H1) as L1. rewrite map_length in L1.
  pose proof (F2_len _ _ _ Hv) as L2.
  assert (L3 : length parts = length values) by (unfold parts, args; now rewrite !map_length).
  set (n := length values) in *. assert (N : INR n <= 262144) by now apply INR_18. pose proof (pos_INR n) as N0.
  assert (A2 : rsum parts <= INR n) by (rewrite <- L3; now apply rsum_le_len).
  assert (A1 : 1 / 2 <= rsum parts).
  { destruct Hm as [M1 _]. assert (In ((1 + E (pixel_arg m m s)) / 2) parts).
    { unfold parts, args. apply in_map_iff. exists (pixel_arg m m s). split; [reflexivity|].
      apply in_map_iff. exists m. now split. }
    assert (0 <= pixel_arg m m s).
    { unfold pixel_arg. replace (m / m) with 1 by (field; lra). rewrite (rnd_id 1) by (apply (fmt_of _ _ one_is)).
      replace (1 - 1 / 2) with (1 / 2) by lra. rewrite (rnd_id (1 / 2)) by (apply (fmt_of _ _ half_is)).
      rewrite <- rnd_0. apply round_le; [typeclasses eauto..|]. apply Rlt_le, Rdiv_lt_0_compat; lra. }
    pose proof (He0 _ H0). pose proof (rsum_ge _ H4 _ H). lra. }
  assert (SM : forall k, INR k <= 300000 -> INR k * uro <= / 2).
  { intros k K. pose proof uro_pos. apply Rle_trans with (300000 * uro); [apply Rmult_le_compat_r; lra|].
    pose proof uro_small. lra. }
  assert (RNG : forall k x y, INR k <= 300000 -> 0 <= y -> close k x y -> y / 2 <= x <= 2 * y).
  { intros k x y K Py (t & -> & T). 
    assert (KU : INR k * uro <= / 4).
    { pose proof uro_pos. apply Rle_trans with (300000 * uro); [apply Rmult_le_compat_r; lra|]. pose proof uro_small. lra. }
    pose proof (pow_bound k ltac:(lra)). pose proof (inv_pow_bound k ltac:(lra)).
    assert (/ 2 <= t <= 2) by lra. split; nra. }
  assert (I2 : INR 2 <= 300000) by (cbn; lra).
  assert (A0 : 0 <= rsum parts) by lra. pose proof (RNG 2%nat _ _ I2 A0 H3) as B3.
  assert (LY : length ys = n) by congruence.
  destruct (fsum_nonneg _ ys H1 H2) as (S & FS & CS & _).
  { apply SM. rewrite map_length, L2. fold n. lra. }
  { apply Rle_trans with (bpow radix2 20); [|apply bpow_le; lia]. change (bpow radix2 20) with 1048576. lra. }
  rewrite map_length, L2 in CS. fold n in CS.
  assert (C1 : close (n + 2) S (rsum parts)) by (apply (close_trans n 2 _ _ _ CS H3)).
  pose proof (RNG (n + 2)%nat S (rsum parts) ltac:(rewrite plus_INR; cbn [INR]; lra) ltac:(lra) C1) as B4.
  assert (Ip : / 4 <= / p <= / 2) by (split; apply Rinv_le; lra).
  assert (B5 : / 16 <= S / p <= 262144) by (unfold Rdiv; split; nra).
  assert (H5 : f64_is (fdiv (fsum (map (fun x => fmul fhalf (fadd fone (erf (fdiv (fsub (fdiv x mx) fhalf) smooth)))) (ravel image))) pi)
    (rnd (S / p))).
  { apply div_is; [exact FS|exact Hpi|lra|]. rewrite Rabs_pos_eq by lra.
    apply Rle_trans with (bpow radix2 20); [change (bpow radix2 20) with 1048576; lra|apply bpow_le; lia]. }
  assert (K1000 : bpow radix2 (-1000) <= / 256).
  { apply Rle_trans with (bpow radix2 (-8)); [apply bpow_le; lia|right; reflexivity]. }
  assert (C2 : close 1 (rnd (S / p)) (S / p)) by (apply close_rnd; rewrite Rabs_pos_eq by lra; lra).
  assert (I1 : INR 1 <= 300000) by (cbn; lra).
  assert (A3 : 0 <= S / p) by lra. pose proof (RNG 1%nat _ _ I1 A3 C2) as B6. set (Q := rnd (S / p)) in *.
  assert (C3 : close (n + 3) Q (rsum parts / p)).
  { replace (n + 3)%nat with (1 + ((n + 2) + 0))%nat by lia. apply (close_trans 1 _ _ _ _ C2).
    apply close_div; [exact C1|apply close_refl]. }
  pose proof (sqrt_is _ _ H5 ltac:(lra)) as H6.
  assert (B7 : / 8 <= sqrt Q <= 1024).
  { replace (/ 8) with (sqrt (/ 8 * / 8)) by (apply sqrt_square; lra).
    replace 1024 with (sqrt (1024 * 1024)) by (apply sqrt_square; lra).
    split; apply sqrt_le_1; lra. }
  assert (C4 : close 1 (rnd (sqrt Q)) (sqrt Q)) by (apply close_rnd; rewrite Rabs_pos_eq by lra; lra).
  assert (A4 : 0 <= sqrt Q) by lra. pose proof (RNG 1%nat _ _ I1 A4 C4) as B8. set (W := rnd (sqrt Q)) in *.
  assert (H7 : f64_is (fmul (fofZ 2) (fsqrt (fdiv (fsum (map (fun x => fmul fhalf (fadd fone (erf (fdiv (fsub (fdiv x mx) fhalf) smooth)))) (ravel image))) pi)))
    (rnd (2 * W))).
  { apply mul_is; [apply (f64_ofZ_is 2); lia|exact H6|]. rewrite Rabs_pos_eq by lra.
    apply Rle_trans with (bpow radix2 20); [change (bpow radix2 20) with 1048576; lra|apply bpow_le; lia]. }
  eexists. exists (rnd (2 * W)). cbv zeta. split; [reflexivity|]. split; [exact H7|].
  rewrite <- rsum_total. split; [|split; [split; [exact A1|exact A2]|exact Da]].
  unfold disc_diameter. replace (n + 5)%nat with (1 + (0 + (1 + (n + 3))))%nat by lia.
  apply (close_trans 1 _ _ (2 * W)); [apply close_rnd; rewrite Rabs_pos_eq by lra; lra|].
  apply close_mult; [apply close_refl|]. apply (close_trans 1 _ _ _ _ C4).
  apply close_sqrt; [|exact C3]. apply Rlt_le, Rdiv_lt_0_compat; lra.
Qed.
End Width.

(** ** Scaled images *)
Lemma same_arg (x x' mx mx' smooth : f64) v m c : 0 < c -> 0 < m -> Rabs (v / m) <= bpow radix2 999 ->
  f64_is x v -> f64_is x' (c * v) -> f64_is mx m -> f64_is mx' (c * m) ->
  fdiv (fsub (fdiv x' mx') fhalf) smooth = fdiv (fsub (fdiv x mx) fhalf) smooth.
Proof.
  intros Hc Hm B Hx Hx' HM HM'. assert (Q : c * v / (c * m) = v / m) by (field; lra).
  assert (K : bpow radix2 999 <= bpow radix2 1000) by (apply bpow_le; lia).
  assert (H1 : f64_is (fdiv x mx) (rnd (v / m))) by (apply div_is; try assumption; lra).
  assert (H2 : f64_is (fdiv x' mx') (rnd (v / m))).
  { rewrite <- Q. apply div_is; try assumption; [nra|]. rewrite Q. lra. }
  f_equal. destruct (Req_dec (rnd (v / m)) 0) as [Z|NZ].
  - rewrite Z in H1, H2.
    assert (T : rnd (0 - 1 / 2) = - (1 / 2)).
    { rewrite Rminus_0_l. apply rnd_id. apply generic_format_opp. apply (fmt_of _ _ half_is). }
    assert (KK : Rabs (0 - 1 / 2) <= bpow radix2 1000).
    { rewrite Rminus_0_l, Rabs_Ropp, Rabs_pos_eq by lra. apply Rle_trans with (bpow radix2 0); [cbn; lra|apply bpow_le; lia]. }
    pose proof (sub_is _ _ _ _ H1 half_is KK) as S1. pose proof (sub_is _ _ _ _ H2 half_is KK) as S2.
    rewrite T in S1, S2. apply (is_nonzero_inj _ _ _ S2 S1). lra.
  - f_equal. now apply (is_nonzero_inj _ _ (rnd (v / m))).
Qed.

Lemma fwhm_scale_f64 (erf : f64 -> f64) pi smooth (image image' : img f64) c values m : 0 < c ->
  Forall2 f64_is (ravel image) values -> Forall2 f64_is (ravel image') (map (Rmult c) values) ->
  largest values m -> 0 < m -> Forall (fun v => Rabs (v / m) <= bpow radix2 999) values ->
  measure_fwhm erf pi image' smooth = measure_fwhm erf pi image smooth.
Proof.
  intros Hc Hv Hv' Hm Pm B.
  assert (MX : forall im vs m', Forall2 f64_is (ravel im) vs -> largest vs m' ->
    exists mx, image_max im = Ok mx /\ f64_is mx m').
  { intros im vs m' G L. unfold image_max. destruct G as [|x v xs us Hx Hxs]; [destruct L as [[] _]|].
    destruct (amax_is xs us Hxs x v Hx) as (m1 & I & L'). eexists. split; [reflexivity|].
    replace m' with m1; [exact I|]. destruct L as [L1 L2], L' as [M1 M2]. apply Rle_antisym; auto. }
  destruct (MX image values m Hv Hm) as (mx & E1 & F1).
  destruct (MX image' (map (Rmult c) values) (c * m) Hv') as (mx' & E2 & F2).
  { destruct Hm as [M1 M2]. split; [now apply in_map|]. intros x Hx. apply in_map_iff in Hx as (v & <- & Hx).
    apply Rmult_le_compat_l; [lra|]. now apply M2. }
  unfold measure_fwhm. rewrite E1, E2. cbn [bind]. rewrite !ravel_imap, !map_map.
  do 5 f_equal. clear E1 E2 Hm. revert Hv'. generalize (ravel image') as xs'.
  induction Hv as [|x v xs vs Hx _ IH]; intros xs' H'; inversion H'; subst; [reflexivity|].
  inversion B; subst. cbn [map]. f_equal; [|now apply IH].
  do 3 f_equal. now apply (same_arg _ _ _ _ _ v m c).
Qed.
