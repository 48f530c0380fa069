(** C91: sums of doubles. *)
From Coq Require Import ZArith List Bool Lia Reals Lra SpecFloat Permutation.
From Flocq Require Import Core.
From Coq Require Import List.
From Verif Require Import Lib.Base Lib.Floats Spec.FloatSpec Spec.CoaddSpec Spec.SumSpec
  Proofs.F64Facts Proofs.RoundSum Proofs.NpSum Proofs.CoaddF64.
Import ListNotations.
Open Scope R_scope.

(** In whatever order [n] doubles are added, the result is within [n - 1] roundings of the
    sum, relative to the sum of the absolute values; without cancellation it is so
    relative to the sum itself and not less than any of the numbers. *)
Theorem C91_any_order_double : forall (l : list f64) (s : f64) (vs : list R),
  adds l s -> Forall2 f64_is l vs -> (0 < Z.of_nat (length l) <= 2 ^ 40)%Z ->
  Forall (fun v => Rabs v <= bpow radix2 900) vs ->
  let n := INR (length l) in
  exists v, f64_is s v /\
    Rabs (v - total vs) <= (n - 1) * bpow radix2 (-52) * total (map Rabs vs) /\
    (Forall (fun x => 0 <= x) vs -> Forall (fun x => x <= v) vs /\
       Rabs (v - total vs) <= n * bpow radix2 (-52) * total vs).
Proof.
  intros l s vs Ha Hv Hn Hb n.
  pose proof (small_count (length l) ltac:(lia)) as Hc. pose proof B13. fold n in Hc.
  assert (N1 : 1 <= n) by (apply (le_INR 1); lia).
  pose proof (F2_len _ _ _ Hv) as L.
  assert (As : asum vs <= bpow radix2 940).
  { eapply Rle_trans; [apply asum_upper; exact Hb|]. rewrite <- L. fold n.
    change (bpow radix2 940) with (bpow radix2 (40 + 900)). rewrite bpow_plus.
    apply Rmult_le_compat_r; [apply bpow_ge_0|]. apply INR_Z; lia. }
  assert (Hh : INR (length l) * uro <= / 2) by (fold n; lra).
  pose proof (pow_bound _ Hh) as P. pose proof (asum_nonneg vs) as A0.
  assert (B1 : (1 + uro) ^ length l * asum vs <= bpow radix2 1000).
  { apply Rle_trans with (2 * bpow radix2 940).
    - apply Rmult_le_compat; [pose proof (pow_ge_1 (length l)); lra|lra|fold n in P; lra|exact As].
    - change 2 with (bpow radix2 1). rewrite <- bpow_plus. apply bpow_le. lia. }
  assert (E2 : bpow radix2 (-52) = 2 * uro).
  { unfold uro. change (-52)%Z with (1 + -53)%Z. rewrite bpow_plus. reflexivity. }
  destruct (adds_error l s Ha vs Hv B1) as (v & Fv & E). exists v. split; [exact Fv|]. rewrite !rsum_total in E.
  assert (Hh' : INR (length l - 1) * uro <= / 2).
  { eapply Rle_trans; [|exact Hh]. apply Rmult_le_compat_r; [left; apply uro_pos|]. apply le_INR. lia. }
  pose proof (pow_bound _ Hh') as P'. rewrite minus_INR in P' by lia. fold n in P'. cbn [INR] in P'.
  split.
  { eapply Rle_trans; [exact E|]. unfold asum. rewrite rsum_total. rewrite E2.
    unfold asum in A0. rewrite rsum_total in A0. apply Rmult_le_compat_r; lra. }
  intros Nn.
  assert (EA : asum vs = rsum vs).
  { unfold asum. f_equal. clear -Nn. induction Nn as [|x vs Hx _ IH]; [reflexivity|]. cbn. now rewrite IH, Rabs_pos_eq. }
  destruct (adds_nonneg l s Ha vs Hv Nn) as (v' & Fv' & C & M & _); [rewrite <- EA; exact B1|].
  assert (v' = v) as -> by (destruct Fv as (_ & _ & <-), Fv' as (_ & _ & <-); reflexivity).
  split; [exact M|]. pose proof (close_bound _ _ _ Hh C) as R. fold n in R. rewrite rsum_total in R.
  rewrite (Rabs_pos_eq (total vs)) in R; [exact R|]. rewrite <- rsum_total. now apply rsum_nonneg.
Qed.

(** numpy's order is one of them, so is the order of a list. *)
Theorem C91_orders : forall (F : Type) (FO : FloatOps F) (l : list F),
  adds l (fsum l) /\ adds l (fold_left fadd l fzero).
Proof. intros. split; [apply adds_fsum|]. exact (adds_fold l [] fzero adds_none). Qed.

(** In exact arithmetic all orders give the sum. *)
Theorem C91_exact : forall (l : list R) s, adds l s -> s = total l.
Proof. exact adds_R. Qed.

(** numpy's sum of up to seven numbers, of eight to fifteen, and of many. *)
Theorem C91_numpy_order : forall (F : Type) (FO : FloatOps F) (l : list F),
  ((length l < 8)%nat -> fsum l = fadd fzero (fold_left fadd l fzero)) /\
  (forall a0 a1 a2 a3 a4 a5 a6 a7 rest, l = [a0; a1; a2; a3; a4; a5; a6; a7] ++ rest -> (length rest < 8)%nat ->
     fsum l = fadd fzero (fold_left fadd rest
       (fadd (fadd (fadd a0 a1) (fadd a2 a3)) (fadd (fadd a4 a5) (fadd a6 a7))))) /\
  (forall part, (128 < length l)%nat -> (part = 8 * (length l / 2 / 8))%nat -> exists s1 s2,
     fsum (firstn part l) = fadd fzero s1 /\ fsum (skipn part l) = fadd fzero s2 /\
     fsum l = fadd fzero (fadd s1 s2)).
Proof.
  intros F FO l. split; [|split].
  - intros H. unfold fsum. do 8 (destruct l as [|? l]; [reflexivity|]). cbn in H. lia.
  - intros a0 a1 a2 a3 a4 a5 a6 a7 rest -> H. unfold fsum.
    do 8 (destruct rest as [|? rest]; [reflexivity|]). cbn in H. lia.
  - intros part Hl Hp.
    assert (B : (0 < part < length l)%nat).
    { pose proof (Nat.div_mod_eq (length l / 2) 8). pose proof (Nat.mod_upper_bound (length l / 2) 8 ltac:(lia)).
      pose proof (Nat.div_mod_eq (length l) 2). pose proof (Nat.mod_upper_bound (length l) 2 ltac:(lia)). lia. }
    exists (pairwise_sum (length (firstn part l)) (firstn part l)), (pairwise_sum (length (skipn part l)) (skipn part l)).
    split; [reflexivity|]. split; [reflexivity|]. unfold fsum at 1. f_equal.
    destruct (length l) as [|k] eqn:El; [lia|]. cbn [pairwise_sum]. rewrite El.
    replace (Nat.leb (S k) 128) with false by (symmetry; apply Nat.leb_gt; lia). cbv zeta.
    replace (S k / 2 - (S k / 2) mod 8)%nat with part
      by (rewrite Hp; pose proof (Nat.div_mod_eq (S k / 2) 8); lia).
    f_equal; apply pairwise_enough; rewrite ?firstn_length, ?skipn_length; lia.
Qed.

(** 0.1 is not a double: ten of them, added one after the other and by numpy. *)
Example C91_example :
  let tenth : f64 := fdec 1 10 in
  feqb (fsum (repeat tenth 10)) (fofZ 1) = true /\
  feqb (fold_left fadd (repeat tenth 10) (fzero : f64)) (fofZ 1) = false /\
  fsum (map (fun n => fofZ (Z.of_nat n) : f64) (seq 1 1000)) = fofZ 500500.
Proof. vm_compute. auto. Qed.

Example C91_example_hypotheses :
  let l : list f64 := map fofZ [1; -2; 3; 4; -5; 6; 7; 8; -9; 10]%Z in
  adds l (fsum l) /\ Forall2 f64_is l (map IZR [1; -2; 3; 4; -5; 6; 7; 8; -9; 10]%Z) /\
  Forall (fun v => Rabs v <= bpow radix2 900) (map IZR [1; -2; 3; 4; -5; 6; 7; 8; -9; 10]%Z).
Proof.
  intros l. split; [apply adds_fsum|]. split.
  - repeat constructor; apply f64_ofZ_is; cbn; lia.
  - apply Forall_map, Forall_forall. intros z Hz. rewrite <- abs_IZR.
    apply Rle_trans with (IZR 16).
    + apply IZR_le. cbn in Hz. repeat (destruct Hz as [<-|Hz]; [cbn; lia|]). destruct Hz.
    + change (IZR 16) with (bpow radix2 4). apply bpow_le. lia.
Qed.

Print Assumptions C91_any_order_double.
Print Assumptions C91_orders.
Print Assumptions C91_exact.
Print Assumptions C91_numpy_order.
