(** C67 in double arithmetic. *)
From Coq Require Import ZArith List Bool Lia Reals Lra SpecFloat.
From Flocq Require Import Core.
From Coq Require Import List.
From Verif Require Import Lib.Base Lib.Floats Model.Lanczos Spec.FloatSpec Spec.LanczosSpec
  Proofs.F64Facts Proofs.LanczosProofs Proofs.FlatProofs Props.PropLanczos Props.PropLanczosF64.
Import ListNotations.
Open Scope R_scope.

(** The value computed on doubles is near the value computed on reals. *)
Lemma flat_double (im : img f64) (a : Z) (y x : f64) (yv xv lev : R) :
  (1 <= a <= 3)%Z -> f64_is y yv -> f64_is x xv -> Rabs yv <= 2 ^ 52 -> Rabs xv <= 2 ^ 52 ->
  bpow radix2 (-900) <= Rabs lev <= bpow radix2 900 ->
  (forall r c, in_window a yv r -> in_window a xv c -> inb im r c /\ f64_is (px im r c) lev) ->
  exists v e w s e', lanczos_point im a y x = Ok (v, e) /\ f64_is v w /\
    lanczos_point (mkimg (nrows im) (ncols im) (fun _ _ => lev)) a yv xv = Ok (s, e') /\
    Rabs (w - s) <= bpow radix2 (-27) * Rabs lev.
Proof.
  intros Ha Hy Hx By Bx BL Hp.
  destruct (C20_value_is_the_kernel_sum_double im (fun _ _ => lev) a y x yv xv (Rabs lev) Ha Hy Hx By Bx)
    as (v & w & e & S & E & Hw & W & Ew).
  { split; [apply Rabs_pos|apply BL]. }
  { intros r c _ Wr Wc. split; [now apply Hp|lra]. }
  destruct (point_ok (mkimg (nrows im) (ncols im) (fun _ _ => lev)) a yv xv) as (s & Es).
  exists v, e, w, s. eexists. split; [exact E|]. split; [exact Hw|]. split; [exact Es|].
  pose proof (C20_value_is_the_kernel_sum _ _ _ _ _ _ Es) as W'. cbn [nrows ncols px] in W'.
  rewrite (window_sum_unique _ _ _ _ _ _ _ _ W' W). eapply Rle_trans; [exact Ew|].
  assert (K : bpow radix2 (-1000) <= bpow radix2 (-28) * Rabs lev).
  { apply Rle_trans with (bpow radix2 (-28) * bpow radix2 (-900)).
    - rewrite <- bpow_plus. apply bpow_le. lia.
    - apply Rmult_le_compat_l; [apply bpow_ge_0|apply BL]. }
  assert (T : bpow radix2 (-27) = 2 * bpow radix2 (-28)) by (change (-27)%Z with (1 + -28)%Z; now rewrite bpow_plus).
  rewrite T. lra.
Qed.

(** C67, double arithmetic: where the window lies inside of the image and the image is
    constant on it, the value is that constant up to a relative error that depends on the
    kernel size only. *)
Theorem C67_constant_images_double :
  forall (im : img f64) (a : Z) (y x : f64) (yv xv lev : R),
  (1 <= a <= 3)%Z -> f64_is y yv -> f64_is x xv -> Rabs yv <= 2 ^ 52 -> Rabs xv <= 2 ^ 52 ->
  bpow radix2 (-900) <= Rabs lev <= bpow radix2 900 ->
  (forall r c, in_window a yv r -> in_window a xv c -> inb im r c /\ f64_is (px im r c) lev) ->
  exists v e w, lanczos_point im a y x = Ok (v, e) /\ f64_is v w /\
    (a = 3%Z -> Rabs (w - lev) <= 11501 / 10 ^ 6 * Rabs lev) /\
    (a = 2%Z -> Rabs (w - lev) <= 38401 / 10 ^ 6 * Rabs lev) /\
    (a = 1%Z -> Rabs (w - lev) <= 343101 / 10 ^ 6 * Rabs lev).
Proof.
  intros im a y x yv xv lev Ha Hy Hx By Bx BL Hp.
  destruct (flat_double im a y x yv xv lev Ha Hy Hx By Bx BL Hp) as (v & e & w & s & e' & E & Hw & Es & D).
  exists v, e, w. split; [exact E|]. split; [exact Hw|].
  assert (F := flat_error (mkimg (nrows im) (ncols im) (fun _ _ => lev)) a yv xv s lev e' Ha).
  destruct F as (F3 & F2 & F1); [|exact Es|].
  { intros r c Wr Wc. split; [now apply (Hp r c)|reflexivity]. }
  assert (T : Rabs (w - lev) <= Rabs (w - s) + Rabs (s - lev)).
  { replace (w - lev) with ((w - s) + (s - lev)) by ring. apply Rabs_triang. }
  change (bpow radix2 (-27)) with (/ 134217728) in D. pose proof (Rabs_pos lev) as P.
  split; [|split]; intros Ea; [specialize (F3 Ea)|specialize (F2 Ea)|specialize (F1 Ea)]; lra.
Qed.

(** C67, double arithmetic: the size 3 kernel never amplifies a constant by more than 4 parts in
    100000. *)
Theorem C67_no_amplification_double :
  forall (im : img f64) (y x : f64) (yv xv lev : R),
  f64_is y yv -> f64_is x xv -> Rabs yv <= 2 ^ 52 -> Rabs xv <= 2 ^ 52 ->
  bpow radix2 (-900) <= lev <= bpow radix2 900 ->
  (forall r c, in_window 3 yv r -> in_window 3 xv c -> inb im r c /\ f64_is (px im r c) lev) ->
  exists v e w, lanczos_point im 3 y x = Ok (v, e) /\ f64_is v w /\
    9885 / 10 ^ 4 * lev <= w <= 100004 / 10 ^ 5 * lev.
Proof.
  intros im y x yv xv lev Hy Hx By Bx BL Hp.
  assert (P : 0 < lev) by (pose proof (bpow_gt_0 radix2 (-900)); lra).
  assert (BL' : bpow radix2 (-900) <= Rabs lev <= bpow radix2 900) by (rewrite Rabs_pos_eq; lra).
  destruct (flat_double im 3 y x yv xv lev ltac:(lia) Hy Hx By Bx BL' Hp) as (v & e & w & s & e' & E & Hw & Es & D).
  exists v, e, w. split; [exact E|]. split; [exact Hw|].
  assert (F := flat_range (mkimg (nrows im) (ncols im) (fun _ _ => lev)) yv xv s lev e' ltac:(lra)).
  specialize (F (fun r c Wr Wc => conj (proj1 (Hp r c Wr Wc)) eq_refl) Es).
  rewrite (Rabs_pos_eq lev) in D by lra. change (bpow radix2 (-27)) with (/ 134217728) in D.
  apply Rabs_le_inv in D. lra.
Qed.

(** C67, double arithmetic: half way between pixels a constant image loses more than 1
    percent. *)
Theorem C67_constant_not_preserved_double :
  forall (im : img f64) (y x : f64) (i j : Z) (lev : R),
  f64_is y (IZR i + 1 / 2) -> f64_is x (IZR j + 1 / 2) ->
  Rabs (IZR i + 1 / 2) <= 2 ^ 52 -> Rabs (IZR j + 1 / 2) <= 2 ^ 52 ->
  bpow radix2 (-900) <= lev <= bpow radix2 900 ->
  (forall r c, in_window 3 (IZR i + 1 / 2) r -> in_window 3 (IZR j + 1 / 2) c ->
     inb im r c /\ f64_is (px im r c) lev) ->
  exists v e w, lanczos_point im 3 y x = Ok (v, e) /\ f64_is v w /\ w < 99 / 100 * lev.
Proof.
  intros im y x i j lev Hy Hx By Bx BL Hp.
  assert (P : 0 < lev) by (pose proof (bpow_gt_0 radix2 (-900)); lra).
  assert (BL' : bpow radix2 (-900) <= Rabs lev <= bpow radix2 900) by (rewrite Rabs_pos_eq; lra).
  destruct (flat_double im 3 y x _ _ lev ltac:(lia) Hy Hx By Bx BL' Hp) as (v & e & w & s & e' & E & Hw & Es & D).
  exists v, e, w. split; [exact E|]. split; [exact Hw|].
  assert (F := flat_half (mkimg (nrows im) (ncols im) (fun _ _ => lev)) i j s lev e' P).
  specialize (F (fun r c Wr Wc => conj (proj1 (Hp r c Wr Wc)) eq_refl) Es).
  rewrite (Rabs_pos_eq lev) in D by lra. change (bpow radix2 (-27)) with (/ 134217728) in D.
  apply Rabs_le_inv in D. lra.
Qed.

(** Concrete: the middle of a 20 x 20 image of 7s, and the value there. *)
Example C67_example_double :
  (forall r c, in_window 3 (IZR 9 + 1 / 2) r -> in_window 3 (IZR 9 + 1 / 2) c ->
     inb (full 20 20 (f64_ofZ 7)) r c /\ f64_is (px (full 20 20 (f64_ofZ 7)) r c) 7) /\
  f64_is (fdiv (f64_ofZ 19) (f64_ofZ 2)) (IZR 9 + 1 / 2) /\
  match lanczos_point (full 20 20 (f64_ofZ 7)) 3 (fdiv (f64_ofZ 19) (f64_ofZ 2)) (fdiv (f64_ofZ 19) (f64_ofZ 2)) with
  | Ok (v, e) => e = false /\ f64_trunc (fmul v (f64_ofZ 1000)) = Some 6920%Z
  | Raise _ => False
  end.
Proof.
  split; [|split].
  - intros r c Hr Hc. unfold in_window in *. unfold inb, full. cbn [nrows ncols px].
    assert (0 <= r)%Z by (apply le_IZR; lra). assert (r < 20)%Z by (apply lt_IZR; lra).
    assert (0 <= c)%Z by (apply le_IZR; lra). assert (c < 20)%Z by (apply lt_IZR; lra).
    split; [repeat split; assumption|]. apply (f64_ofZ_is 7). lia.
  - replace (IZR 9 + 1 / 2) with (rnd (IZR 19 / IZR 2)).
    + apply f64_div_is; try (apply f64_ofZ_is; lia); [lra|].
      rewrite Rabs_pos_eq by lra. change (bpow radix2 60) with (IZR (2 ^ 60)). cbn. lra.
    + rewrite (rnd_id (IZR 19 / IZR 2)) by (apply half_format; lia). lra.
  - vm_compute. split; reflexivity.
Qed.

Print Assumptions C67_constant_images_double.
Print Assumptions C67_no_amplification_double.
Print Assumptions C67_constant_not_preserved_double.
