(** Rounding errors of sums, products and quotients of doubles. *)
From Coq Require Import ZArith List Lia Reals Lra SpecFloat Permutation.
From Flocq Require Import Core BinarySingleNaN.
From Flocq Require Import Relative Plus_error.
From Coq Require Import List.
From Verif Require Import Lib.Base Lib.Floats Spec.FloatSpec Spec.SumSpec Proofs.F64Facts Proofs.NpSum.
Import ListNotations.
Open Scope R_scope.

#[local] Instance Hprec : Prec_gt_0 53 := eq_refl _.
#[local] Instance Hmax : Prec_lt_emax 53 1024 := eq_refl _.
#[local] Instance fexp64_valid : Valid_exp fexp64 := fexp_correct 53 1024 _.
#[local] Instance fexp64_mono : Monotone_exp fexp64 := fexp_monotone 53 1024.

(** Unit roundoff. *)
Definition uro : R := bpow radix2 (-53).

Lemma uro_pos : 0 < uro.
Proof. apply bpow_gt_0. Qed.

Lemma uro_eq : u_ro radix2 53 = uro.
Proof.
  unfold u_ro, uro. change (/ 2) with (bpow radix2 (-1)). rewrite <- bpow_plus. reflexivity.
Qed.

Lemma rnd_0 : rnd 0 = 0.
Proof. apply round_0. typeclasses eauto. Qed.

Lemma fmt_of x v : f64_is x v -> generic_format radix2 fexp64 v.
Proof. intros H. apply f64_is_B in H as (b & _ & _ & <-). apply generic_format_B2R. Qed.

(** ** Operations in the wide range *)
Lemma no_overflow v : Rabs v <= bpow radix2 1000 -> Rabs (rnd v) < bpow radix2 1024.
Proof.
  intros H. apply Rle_lt_trans with (bpow radix2 1000).
  - apply abs_round_le_generic; [typeclasses eauto..| |assumption].
    apply generic_format_bpow. cbn. lia.
  - apply bpow_lt. lia.
Qed.

Lemma add_is x y v w : f64_is x v -> f64_is y w -> Rabs (v + w) <= bpow radix2 1000 ->
  f64_is (SFadd 53 1024 x y) (rnd (v + w)).
Proof.
  intros Hx Hy Hb.
  apply f64_is_B in Hx as (bx & -> & Fx & <-). apply f64_is_B in Hy as (b & -> & Fy & <-).
  rewrite SFadd_equiv.
  generalize (Bplus_correct 53 1024 _ _ mode_NE bx b Fx Fy).
  rewrite Rlt_bool_true by now apply no_overflow.
  intros (H1 & H2 & _). cbn in H1. rewrite <- H1. now apply B_f64_is.
Qed.

Lemma mul_is x y v w : f64_is x v -> f64_is y w -> Rabs (v * w) <= bpow radix2 1000 ->
  f64_is (SFmul 53 1024 x y) (rnd (v * w)).
Proof.
  intros Hx Hy Hb.
  apply f64_is_B in Hx as (bx & -> & Fx & <-). apply f64_is_B in Hy as (b & -> & Fy & <-).
  rewrite SFmul_equiv.
  generalize (Bmult_correct 53 1024 _ _ mode_NE bx b).
  rewrite Rlt_bool_true by now apply no_overflow.
  intros (H1 & H2 & _). cbn in H1. rewrite <- H1. apply B_f64_is.
  rewrite H2, Fx, Fy. reflexivity.
Qed.

Lemma div_is x y v w : f64_is x v -> f64_is y w -> w <> 0 -> Rabs (v / w) <= bpow radix2 1000 ->
  f64_is (SFdiv 53 1024 x y) (rnd (v / w)).
Proof.
  intros Hx Hy Hw Hb.
  apply f64_is_B in Hx as (bx & -> & Fx & <-). apply f64_is_B in Hy as (b & -> & Fy & <-).
  rewrite SFdiv_equiv.
  generalize (Bdiv_correct 53 1024 _ _ mode_NE bx b Hw).
  rewrite Rlt_bool_true by now apply no_overflow.
  intros (H1 & H2 & _). cbn in H1. rewrite <- H1. apply B_f64_is.
  now rewrite H2, Fx.
Qed.

(** ** Errors of one rounding *)
Lemma add_error v w : generic_format radix2 fexp64 v -> generic_format radix2 fexp64 w ->
  exists e, Rabs e <= uro / (1 + uro) /\ rnd (v + w) = (v + w) * (1 + e).
Proof.
  intros Hv Hw.
  destruct (FLT_plus_error_N_ex radix2 (-1074) 53 (fun x => negb (Z.even x)) v w Hv Hw) as (e & He & E).
  rewrite uro_eq in He. exists e. split; [exact He|exact E].
Qed.

Lemma rnd_error_gen x : exists e h,
  Rabs e <= uro / (1 + uro) /\ Rabs h <= bpow radix2 (-1075) /\ rnd x = x * (1 + e) + h.
Proof.
  destruct (relative_error_N_FLT'_ex radix2 (-1074) 53 ltac:(lia) (fun x => negb (Z.even x)) x)
    as (e & h & He & Hh & _ & E).
  rewrite uro_eq in He. exists e, h. split; [exact He|]. split; [|exact E].
  change (bpow radix2 (-1075)) with (bpow radix2 (-1 + -1074)). rewrite bpow_plus. exact Hh.
Qed.

Lemma rnd_error_normal x : bpow radix2 (-1000) <= Rabs x ->
  exists e, Rabs e <= uro / (1 + uro) /\ rnd x = x * (1 + e).
Proof.
  intros H.
  destruct (relative_error_N_FLX'_ex radix2 53 ltac:(lia) (fun x => negb (Z.even x)) x) as (e & He & E).
  rewrite uro_eq in He. exists e. split; [exact He|]. rewrite <- E. unfold rnd64.
  apply (round_FLT_FLX radix2 (-1074) 53 ZnearestE x). eapply Rle_trans; [|exact H].
  apply bpow_le. lia.
Qed.

Lemma err_le_uro : uro / (1 + uro) <= uro.
Proof.
  pose proof uro_pos. apply Rmult_le_reg_r with (1 + uro); [lra|]. unfold Rdiv.
  rewrite Rmult_assoc, Rinv_l by lra. nra.
Qed.

(** ** Relative closeness: [x] and [y] differ by at most [k] roundings. *)
Definition close (k : nat) (x y : R) : Prop :=
  exists t, x = y * t /\ / (1 + uro) ^ k <= t <= (1 + uro) ^ k.

Lemma pow_ge_1 k : 1 <= (1 + uro) ^ k.
Proof. pose proof uro_pos. apply pow_R1_Rle. lra. Qed.

Lemma inv_pow_pos k : 0 < / (1 + uro) ^ k.
Proof. apply Rinv_0_lt_compat. pose proof (pow_ge_1 k). lra. Qed.

Lemma close_refl x : close 0 x x.
Proof. exists 1. cbn. lra. Qed.

Lemma close_weaken k k' x y : (k <= k')%nat -> close k x y -> close k' x y.
Proof.
  intros Hk (t & E & H). exists t. split; [exact E|].
  assert ((1 + uro) ^ k <= (1 + uro) ^ k') by (apply Rle_pow; [pose proof uro_pos; lra|exact Hk]).
  assert (/ (1 + uro) ^ k' <= / (1 + uro) ^ k).
  { apply Rinv_le; [pose proof (pow_ge_1 k); lra|assumption]. }
  lra.
Qed.

Lemma close_mult k k' x y x' y' : close k x y -> close k' x' y' -> close (k + k') (x * x') (y * y').
Proof.
  intros (t & -> & H) (t' & -> & H'). exists (t * t'). split; [ring|].
  rewrite pow_add, Rinv_mult. pose proof (inv_pow_pos k). pose proof (inv_pow_pos k').
  split; apply Rmult_le_compat; lra.
Qed.

Lemma close_inv k x y : close k x y -> close k (/ x) (/ y).
Proof.
  intros (t & -> & H). exists (/ t). rewrite Rinv_mult. split; [ring|].
  pose proof (inv_pow_pos k). split; [apply Rinv_le; lra|].
  rewrite <- (Rinv_inv ((1 + uro) ^ k)). apply Rinv_le; lra.
Qed.

Lemma close_div k k' x y x' y' : close k x y -> close k' x' y' -> close (k + k') (x / x') (y / y').
Proof. intros H H'. apply close_mult; [exact H|]. now apply close_inv. Qed.

Lemma close_trans k k' x y z : close k x y -> close k' y z -> close (k + k') x z.
Proof.
  intros (t & -> & H) (t' & -> & H'). exists (t' * t). split; [ring|].
  rewrite pow_add, Rinv_mult. pose proof (inv_pow_pos k). pose proof (inv_pow_pos k').
  rewrite (Rmult_comm t' t). split; apply Rmult_le_compat; lra.
Qed.

Lemma close_1 e : Rabs e <= uro / (1 + uro) -> / (1 + uro) ^ 1 <= 1 + e <= (1 + uro) ^ 1.
Proof.
  intros H. pose proof err_le_uro. pose proof uro_pos. rewrite pow_1.
  apply Rabs_le_inv in H. split; [|lra].
  replace (/ (1 + uro)) with (1 - uro / (1 + uro)) by (field; lra). lra.
Qed.

Lemma close_add_rnd v w : generic_format radix2 fexp64 v -> generic_format radix2 fexp64 w ->
  close 1 (rnd (v + w)) (v + w).
Proof.
  intros Hv Hw. destruct (add_error v w Hv Hw) as (e & He & E). exists (1 + e). split; [exact E|].
  now apply close_1.
Qed.

Lemma close_rnd x : bpow radix2 (-1000) <= Rabs x -> close 1 (rnd x) x.
Proof.
  intros H. destruct (rnd_error_normal x H) as (e & He & E). exists (1 + e). split; [exact E|].
  now apply close_1.
Qed.

Lemma close_pos k x y : close k x y -> 0 < y -> 0 < x.
Proof.
  intros (t & -> & H) Hy. apply Rmult_lt_0_compat; [exact Hy|]. pose proof (inv_pow_pos k). lra.
Qed.

Lemma close_nonneg k x y : close k x y -> 0 <= y -> 0 <= x.
Proof.
  intros (t & -> & H) Hy. apply Rmult_le_pos; [exact Hy|]. pose proof (inv_pow_pos k). lra.
Qed.

(** Sums of nonnegative numbers. *)
Lemma close_plus k x y x' y' : 0 <= y -> 0 <= y' -> close k x y -> close k x' y' ->
  close k (x + x') (y + y').
Proof.
  intros Hy Hy' (t & -> & H) (t' & -> & H').
  destruct (Req_dec (y + y') 0) as [Z|NZ].
  - assert (y = 0) as -> by lra. assert (y' = 0) as -> by lra. exists t. split; [ring|exact H].
  - exists ((y * t + y' * t') / (y + y')). split; [field; lra|].
    assert (P : 0 < y + y') by lra.
    split; apply Rmult_le_reg_r with (y + y'); try exact P; unfold Rdiv;
      rewrite ?Rmult_assoc, ?Rinv_l by lra; rewrite ?Rmult_1_r; rewrite ?Rmult_plus_distr_l;
      apply Rplus_le_compat;
      (rewrite (Rmult_comm _ y) || rewrite (Rmult_comm _ y') || idtac);
      apply Rmult_le_compat_l; lra.
Qed.

(** The bound in ordinary terms. *)
Lemma pow_bound n : INR n * uro <= / 2 -> (1 + uro) ^ n <= 1 + 2 * INR n * uro.
Proof.
  pose proof uro_pos as U. induction n as [|n IH]; intros H; [cbn; lra|].
  rewrite S_INR in *. assert (0 <= INR n) by apply pos_INR.
  assert (P : 0 <= INR n * uro) by (apply Rmult_le_pos; lra).
  assert (IH' := IH ltac:(lra)). cbn [pow].
  apply Rle_trans with ((1 + uro) * (1 + 2 * INR n * uro)).
  - apply Rmult_le_compat_l; lra.
  - nra.
Qed.

Lemma inv_pow_bound n : INR n * uro <= / 2 -> 1 - 2 * INR n * uro <= / (1 + uro) ^ n.
Proof.
  intros H. pose proof (pow_bound n H). pose proof (pow_ge_1 n).
  pose proof uro_pos. assert (0 <= INR n) by apply pos_INR.
  assert (P : 0 <= INR n * uro) by (apply Rmult_le_pos; lra).
  apply Rmult_le_reg_r with ((1 + uro) ^ n); [lra|]. rewrite Rinv_l by lra.
  nra.
Qed.

Lemma close_bound k x y : INR k * uro <= / 2 -> close k x y ->
  Rabs (x - y) <= INR k * bpow radix2 (-52) * Rabs y.
Proof.
  intros Hk (t & -> & H). pose proof (pow_bound k Hk). pose proof (inv_pow_bound k Hk).
  replace (y * t - y) with ((t - 1) * y) by ring. rewrite Rabs_mult.
  apply Rmult_le_compat_r; [apply Rabs_pos|].
  assert (E : bpow radix2 (-52) = 2 * uro).
  { unfold uro. change (-52)%Z with (1 + -53)%Z. rewrite bpow_plus. reflexivity. }
  rewrite E. apply Rabs_le. lra.
Qed.

(** ** Sums of doubles *)
Fixpoint rsum (l : list R) : R := match l with [] => 0 | x :: l => x + rsum l end.
Definition asum (l : list R) : R := rsum (map Rabs l).

Lemma asum_nonneg l : 0 <= asum l.
Proof. unfold asum. induction l as [|x l IH]; cbn; [lra|]. pose proof (Rabs_pos x). lra. Qed.

Lemma asum_cons x l : asum (x :: l) = Rabs x + asum l.
Proof. reflexivity. Qed.

Lemma rsum_le_asum l : Rabs (rsum l) <= asum l.
Proof.
  induction l as [|x l IH]; [unfold asum; cbn; rewrite Rabs_R0; lra|]. rewrite asum_cons. cbn [rsum].
  eapply Rle_trans; [apply Rabs_triang|]. lra.
Qed.

Definition pow0 := pow_ge_1.

Lemma fold_add_error xs vs : Forall2 f64_is xs vs ->
  forall a al, f64_is a al ->
  (1 + uro) ^ length xs * (Rabs al + asum vs) <= bpow radix2 1000 ->
  exists s, f64_is (fold_left (SFadd 53 1024) xs a) s /\
    Rabs (s - (al + rsum vs)) <= ((1 + uro) ^ length xs - 1) * (Rabs al + asum vs).
Proof.
  induction 1 as [|x v xs vs Hx _ IH]; intros a al Ha Hb.
  - exists al. split; [exact Ha|]. cbn [length pow rsum]. unfold asum. cbn.
    replace (al - (al + 0)) with 0 by ring. rewrite Rabs_R0. lra.
  - cbn [fold_left length] in *. rewrite asum_cons in *. cbn [rsum].
    pose proof uro_pos as U. pose proof (pow_ge_1 (length xs)) as P. pose proof (asum_nonneg vs) as A0.
    pose proof (Rabs_triang al v) as T. pose proof (Rabs_pos al). pose proof (Rabs_pos v).
    pose proof (Rabs_pos (al + v)).
    cbn [pow] in Hb.
    set (p := (1 + uro) ^ length xs) in *. set (B := Rabs al + (Rabs v + asum vs)) in *.
    assert (B0 : 0 <= B) by (unfold B; lra).
    assert (PB : p * B <= bpow radix2 1000).
    { eapply Rle_trans; [|exact Hb]. rewrite Rmult_assoc.
      assert (0 <= p * B) by (apply Rmult_le_pos; lra). nra. }
    destruct (add_error al v (fmt_of _ _ Ha) (fmt_of _ _ Hx)) as (e & He & E).
    assert (He' : Rabs e <= uro) by (pose proof err_le_uro; lra).
    assert (Hadd : f64_is (SFadd 53 1024 a x) ((al + v) * (1 + e))).
    { rewrite <- E. apply add_is; [exact Ha|exact Hx|].
      apply Rle_trans with (p * B); [|exact PB]. apply Rle_trans with B; [unfold B; lra|]. nra. }
    set (a' := (al + v) * (1 + e)) in *.
    assert (D : Rabs (a' - (al + v)) <= uro * (Rabs al + Rabs v)).
    { unfold a'. replace ((al + v) * (1 + e) - (al + v)) with (e * (al + v)) by ring.
      rewrite Rabs_mult. apply Rle_trans with (uro * Rabs (al + v)).
      - apply Rmult_le_compat_r; [apply Rabs_pos|exact He'].
      - apply Rmult_le_compat_l; lra. }
    assert (A1 : Rabs a' <= (1 + uro) * (Rabs al + Rabs v)).
    { replace a' with ((al + v) + (a' - (al + v))) by ring. eapply Rle_trans; [apply Rabs_triang|].
      rewrite Rmult_plus_distr_r, Rmult_1_l. lra. }
    assert (Q : Rabs a' + asum vs <= (1 + uro) * B).
    { unfold B. pose proof A0. nra. }
    destruct (IH _ _ Hadd) as (s & Hs & Es).
    { apply Rle_trans with (p * ((1 + uro) * B)); [apply Rmult_le_compat_l; lra|].
      eapply Rle_trans; [|exact Hb]. right. ring. }
    exists s. split; [exact Hs|].
    replace (s - (al + (v + rsum vs))) with ((s - (a' + rsum vs)) + (a' - (al + v))) by ring.
    eapply Rle_trans; [apply Rabs_triang|].
    apply Rle_trans with ((p - 1) * (Rabs a' + asum vs) + uro * (Rabs al + Rabs v)); [lra|].
    apply Rle_trans with ((p - 1) * ((1 + uro) * (Rabs al + Rabs v) + asum vs) + uro * (Rabs al + Rabs v)).
    + apply Rplus_le_compat_r. apply Rmult_le_compat_l; lra.
    + cbn [pow]. fold p. unfold B.
      assert (0 <= uro * (p * asum vs)) by (apply Rmult_le_pos; [lra|apply Rmult_le_pos; lra]).
      replace (((1 + uro) * p - 1) * (Rabs al + (Rabs v + asum vs)))
        with ((p - 1) * ((1 + uro) * (Rabs al + Rabs v) + asum vs) + uro * (Rabs al + Rabs v)
              + uro * (p * asum vs)) by ring.
      lra.
Qed.

(** One number after the other. *)
Definition ssum (xs : list f64) : f64 := fold_left fadd xs fzero.

Lemma ssum_error xs vs : Forall2 f64_is xs vs -> INR (length xs) * uro <= / 2 ->
  asum vs <= bpow radix2 999 ->
  exists s, f64_is (ssum xs) s /\
    Rabs (s - rsum vs) <= INR (length xs) * bpow radix2 (-52) * asum vs.
Proof.
  intros H Hn Hb.
  assert (Z0 : f64_is (fzero : f64) 0) by (apply (f64_ofZ_is 0); cbn; lia).
  pose proof (pow_bound _ Hn) as P. pose proof (asum_nonneg vs) as A0. pose proof (pow_ge_1 (length xs)).
  destruct (fold_add_error xs vs H fzero 0 Z0) as (s & Hs & E).
  - rewrite Rabs_R0, Rplus_0_l. apply Rle_trans with (2 * asum vs); [apply Rmult_le_compat_r; lra|].
    change (bpow radix2 1000) with (bpow radix2 (1 + 999)). rewrite bpow_plus. change (bpow radix2 1) with 2. lra.
  - exists s. split; [exact Hs|]. rewrite Rabs_R0, !Rplus_0_l in E. eapply Rle_trans; [exact E|].
    apply Rmult_le_compat_r; [exact A0|].
    assert (E2 : bpow radix2 (-52) = 2 * uro).
    { unfold uro. change (-52)%Z with (1 + -53)%Z. rewrite bpow_plus. reflexivity. }
    rewrite E2. lra.
Qed.

(** Nonnegative terms. *)
Lemma fold_add_nonneg xs vs : Forall2 f64_is xs vs -> Forall (fun v => 0 <= v) vs ->
  forall a al, f64_is a al -> 0 <= al ->
  (1 + uro) ^ length xs * (al + rsum vs) <= bpow radix2 1000 ->
  exists s, f64_is (fold_left (SFadd 53 1024) xs a) s /\ close (length xs) s (al + rsum vs) /\
    al <= s /\ Forall (fun v => v <= s) vs.
Proof.
  induction 1 as [|x v xs vs Hx _ IH]; intros Hv a al Ha Hal Hb.
  - exists al. split; [exact Ha|]. cbn [length rsum] in *. rewrite Rplus_0_r.
    split; [apply close_refl|]. split; [lra|constructor].
  - cbn [fold_left length rsum] in *. inversion Hv as [|? ? Hv0 Hvs]; subst.
    pose proof uro_pos as U. pose proof (pow_ge_1 (length xs)) as P.
    assert (S0 : 0 <= rsum vs).
    { clear - Hvs. induction Hvs; cbn; lra. }
    assert (Fa := fmt_of _ _ Ha). assert (Fx := fmt_of _ _ Hx).
    assert (C := close_add_rnd al v Fa Fx).
    assert (N := close_nonneg _ _ _ C ltac:(lra)).
    assert (U1 : rnd (al + v) <= (1 + uro) * (al + v)).
    { destruct C as (t & -> & [_ Ht]). rewrite pow_1 in Ht. rewrite (Rmult_comm (1 + uro)).
      apply Rmult_le_compat_l; lra. }
    assert (M1 : al <= rnd (al + v)).
    { apply round_ge_generic; [typeclasses eauto..|exact Fa|lra]. }
    assert (M2 : v <= rnd (al + v)).
    { apply round_ge_generic; [typeclasses eauto..|exact Fx|lra]. }
    cbn [pow] in Hb. set (p := (1 + uro) ^ length xs) in *.
    assert (PB : p * ((1 + uro) * (al + (v + rsum vs))) <= bpow radix2 1000).
    { eapply Rle_trans; [|exact Hb]. right. ring. }
    assert (Hadd : f64_is (SFadd 53 1024 a x) (rnd (al + v))).
    { apply add_is; [exact Ha|exact Hx|]. rewrite Rabs_pos_eq by lra.
      eapply Rle_trans; [|exact PB].
      apply Rle_trans with (1 * ((1 + uro) * (al + (v + rsum vs)))); [nra|].
      apply Rmult_le_compat_r; [nra|exact P]. }
    destruct (IH Hvs _ _ Hadd N) as (s & Hs & Cs & M & MF).
    { eapply Rle_trans; [|exact PB]. apply Rmult_le_compat_l; [lra|]. nra. }
    exists s. split; [exact Hs|]. split; [|split].
    + replace (S (length xs)) with (length xs + 1)%nat by lia.
      eapply close_trans; [exact Cs|]. rewrite <- Rplus_assoc.
      apply close_plus; [lra|exact S0|exact C|]. eapply close_weaken; [|apply close_refl]. lia.
    + lra.
    + constructor; [lra|exact MF].
Qed.

Lemma ssum_nonneg xs vs : Forall2 f64_is xs vs -> Forall (fun v => 0 <= v) vs ->
  INR (length xs) * uro <= / 2 -> rsum vs <= bpow radix2 999 ->
  exists s, f64_is (ssum xs) s /\ close (length xs) s (rsum vs) /\ Forall (fun v => v <= s) vs.
Proof.
  intros H Hv Hn Hb.
  assert (Z0 : f64_is (fzero : f64) 0) by (apply (f64_ofZ_is 0); cbn; lia).
  pose proof (pow_bound _ Hn) as P. pose proof (pow_ge_1 (length xs)).
  assert (S0 : 0 <= rsum vs) by (clear - Hv; induction Hv; cbn; lra).
  destruct (fold_add_nonneg xs vs H Hv fzero 0 Z0 ltac:(lra)) as (s & Hs & C & _ & M).
  - rewrite Rplus_0_l. apply Rle_trans with (2 * rsum vs); [apply Rmult_le_compat_r; lra|].
    change (bpow radix2 1000) with (bpow radix2 (1 + 999)). rewrite bpow_plus. change (bpow radix2 1) with 2. lra.
  - exists s. rewrite Rplus_0_l in C. auto.
Qed.

(** ** In any order *)
Lemma rsum_perm l l' : Permutation l l' -> rsum l = rsum l'.
Proof. induction 1; cbn; lra. Qed.

Lemma rsum_app l l' : rsum (l ++ l') = rsum l + rsum l'.
Proof. induction l as [|x l IH]; cbn; [ring|]. rewrite IH. ring. Qed.

Lemma asum_perm l l' : Permutation l l' -> asum l = asum l'.
Proof. intros P. apply rsum_perm, Permutation_map, P. Qed.

Lemma asum_app l l' : asum (l ++ l') = asum l + asum l'.
Proof. unfold asum. rewrite map_app. apply rsum_app. Qed.

Lemma F2_app_l {A B} (P : A -> B -> Prop) l1 : forall l2 m, Forall2 P (l1 ++ l2) m ->
  exists m1 m2, m = m1 ++ m2 /\ Forall2 P l1 m1 /\ Forall2 P l2 m2.
Proof.
  induction l1 as [|x l1 IH]; intros l2 m H; cbn in H.
  - exists [], m. repeat split; [constructor|exact H].
  - inversion H as [|? y ? m' Hy Hr]; subst. destruct (IH _ _ Hr) as (m1 & m2 & -> & H1 & H2).
    exists (y :: m1), m2. repeat split; [constructor; assumption|exact H2].
Qed.

Lemma F2_length {A B} (P : A -> B -> Prop) l m : Forall2 P l m -> length l = length m.
Proof. induction 1; cbn; congruence. Qed.

Lemma pow_mono k k' : (k <= k')%nat -> (1 + uro) ^ k <= (1 + uro) ^ k'.
Proof. intros H. apply Rle_pow; [pose proof uro_pos; lra|exact H]. Qed.

Lemma rnd_fmt v : generic_format radix2 fexp64 v -> rnd v = v.
Proof. intros H. apply round_generic; [typeclasses eauto|exact H]. Qed.

(** The exponent is the number of additions of two sums that are not empty. *)
Lemma adds_error (l : list f64) s : adds l s -> forall vs, Forall2 f64_is l vs ->
  (1 + uro) ^ length l * asum vs <= bpow radix2 1000 ->
  exists v, f64_is s v /\ Rabs (v - rsum vs) <= ((1 + uro) ^ (length l - 1) - 1) * asum vs.
Proof.
  induction 1 as [|x|l1 l2 l s1 s2 _ IH1 _ IH2 P]; intros vs Hv Hb.
  - inversion Hv; subst. exists 0. split; [apply (f64_ofZ_is 0); cbn; lia|].
    unfold asum. cbn. replace (0 - 0) with 0 by ring. rewrite Rabs_R0. lra.
  - inversion Hv as [|? v ? m Hx Hm]; subst. inversion Hm; subst. exists v. split; [exact Hx|].
    unfold asum. cbn. replace (v - (v + 0)) with 0 by ring. rewrite Rabs_R0. lra.
  - destruct (Permutation_Forall2 (Permutation_sym P) Hv) as (vs' & P' & Hv').
    destruct (F2_app_l _ _ _ _ Hv') as (v1 & v2 & -> & H1 & H2).
    rewrite (rsum_perm _ _ P'), (asum_perm _ _ P') in *. rewrite rsum_app, asum_app in *.
    pose proof (Permutation_length P) as L. rewrite app_length in L. rewrite <- L in *. clear L P' P Hv Hv'.
    pose proof (asum_nonneg v1) as A1. pose proof (asum_nonneg v2) as A2. pose proof uro_pos as U.
    set (n1 := length l1) in *. set (n2 := length l2) in *.
    assert (B1 : (1 + uro) ^ n1 * asum v1 <= bpow radix2 1000).
    { eapply Rle_trans; [|exact Hb]. pose proof (pow_ge_1 n1). pose proof (pow_mono n1 (n1 + n2) ltac:(lia)).
      apply Rmult_le_compat; lra. }
    assert (B2 : (1 + uro) ^ n2 * asum v2 <= bpow radix2 1000).
    { eapply Rle_trans; [|exact Hb]. pose proof (pow_ge_1 n2). pose proof (pow_mono n2 (n1 + n2) ltac:(lia)).
      apply Rmult_le_compat; lra. }
    destruct (IH1 v1 H1 B1) as (w1 & F1 & E1). destruct (IH2 v2 H2 B2) as (w2 & F2 & E2). clear IH1 IH2.
    assert (W : forall n v w, Rabs (w - rsum v) <= ((1 + uro) ^ (n - 1) - 1) * asum v -> Rabs w <= (1 + uro) ^ (n - 1) * asum v).
    { intros n v w E. replace w with ((w - rsum v) + rsum v) by ring. eapply Rle_trans; [apply Rabs_triang|].
      pose proof (rsum_le_asum v). lra. }
    pose proof (W _ _ _ E1) as W1. pose proof (W _ _ _ E2) as W2. clear W.
    assert (S12 : Rabs (w1 + w2) <= bpow radix2 1000).
    { eapply Rle_trans; [apply Rabs_triang|]. eapply Rle_trans; [|exact Hb].
      rewrite Rmult_plus_distr_l.
      pose proof (pow_mono (n1 - 1) (n1 + n2) ltac:(lia)). pose proof (pow_mono (n2 - 1) (n1 + n2) ltac:(lia)).
      apply Rplus_le_compat; (eapply Rle_trans; [eassumption|]); apply Rmult_le_compat_r; assumption. }
    exists (rnd (w1 + w2)). split; [apply add_is; assumption|].
    destruct l1 as [|x1 l1'] eqn:El1.
    { apply F2_length in H1. destruct v1; [|discriminate]. unfold asum in *. cbn in *.
      assert (w1 = 0) as ->. { revert E1. replace (w1 - 0) with w1 by ring. intros E1. assert (Rabs w1 <= 0) by lra.
        destruct (Req_dec w1 0); [assumption|]. pose proof (Rabs_pos_lt w1 ltac:(assumption)). lra. }
      rewrite !Rplus_0_l. rewrite rnd_fmt by exact (fmt_of _ _ F2). exact E2. }
    destruct l2 as [|x2 l2'] eqn:El2.
    { apply F2_length in H2. destruct v2; [|discriminate]. unfold asum in *. cbn in *.
      assert (w2 = 0) as ->. { revert E2. replace (w2 - 0) with w2 by ring. intros E2. assert (Rabs w2 <= 0) by lra.
        destruct (Req_dec w2 0); [assumption|]. pose proof (Rabs_pos_lt w2 ltac:(assumption)). lra. }
      rewrite !Rplus_0_r. rewrite rnd_fmt by exact (fmt_of _ _ F1). unfold n2. cbn [length]. rewrite Nat.add_0_r. exact E1. }
    set (k := (n1 + n2 - 2)%nat).
    assert (K : (n1 + n2 - 1 = S k)%nat) by (unfold k, n1, n2; cbn; lia).
    assert (K1 : (n1 - 1 <= k)%nat) by (unfold k, n1, n2; cbn; lia).
    assert (K2 : (n2 - 1 <= k)%nat) by (unfold k, n1, n2; cbn; lia).
    rewrite K. cbn [pow]. pose proof (pow_mono _ _ K1) as M1. pose proof (pow_mono _ _ K2) as M2.
    pose proof (pow_ge_1 k) as Pk. set (p := (1 + uro) ^ k) in *.
    assert (E1' : Rabs (w1 - rsum v1) <= (p - 1) * asum v1).
    { eapply Rle_trans; [exact E1|]. apply Rmult_le_compat_r; lra. }
    assert (E2' : Rabs (w2 - rsum v2) <= (p - 1) * asum v2).
    { eapply Rle_trans; [exact E2|]. apply Rmult_le_compat_r; lra. }
    assert (W1' : Rabs w1 <= p * asum v1).
    { eapply Rle_trans; [exact W1|]. apply Rmult_le_compat_r; lra. }
    assert (W2' : Rabs w2 <= p * asum v2).
    { eapply Rle_trans; [exact W2|]. apply Rmult_le_compat_r; lra. }
    destruct (add_error w1 w2 (fmt_of _ _ F1) (fmt_of _ _ F2)) as (e & He & E).
    assert (He' : Rabs e <= uro) by (pose proof err_le_uro; lra). rewrite E.
    replace ((w1 + w2) * (1 + e) - (rsum v1 + rsum v2)) with ((w1 - rsum v1) + (w2 - rsum v2) + e * (w1 + w2)) by ring.
    eapply Rle_trans; [apply Rabs_triang|]. rewrite Rabs_mult.
    assert (X : Rabs e * Rabs (w1 + w2) <= uro * (p * (asum v1 + asum v2))).
    { apply Rmult_le_compat; try apply Rabs_pos; [exact He'|]. eapply Rle_trans; [apply Rabs_triang|]. lra. }
    assert (Y : Rabs (w1 - rsum v1 + (w2 - rsum v2)) <= (p - 1) * (asum v1 + asum v2)).
    { eapply Rle_trans; [apply Rabs_triang|]. lra. }
    replace (((1 + uro) * p - 1) * (asum v1 + asum v2)) with ((p - 1) * (asum v1 + asum v2) + uro * (p * (asum v1 + asum v2))) by ring.
    lra.
Qed.

Lemma fsum_error xs vs : Forall2 f64_is xs vs -> INR (length xs) * uro <= / 2 ->
  asum vs <= bpow radix2 999 ->
  exists s, f64_is (fsum xs) s /\
    Rabs (s - rsum vs) <= INR (length xs) * bpow radix2 (-52) * asum vs.
Proof.
  intros H Hn Hb.
  pose proof (pow_bound _ Hn) as P. pose proof (asum_nonneg vs) as A0.
  destruct (adds_error xs (fsum xs) (adds_fsum xs) vs H) as (s & Hs & E).
  - apply Rle_trans with (2 * asum vs); [apply Rmult_le_compat_r; lra|].
    change (bpow radix2 1000) with (bpow radix2 (1 + 999)). rewrite bpow_plus. change (bpow radix2 1) with 2. lra.
  - exists s. split; [exact Hs|]. eapply Rle_trans; [exact E|].
    apply Rmult_le_compat_r; [exact A0|]. pose proof (pow_mono (length xs - 1) (length xs) ltac:(lia)).
    assert (E2 : bpow radix2 (-52) = 2 * uro).
    { unfold uro. change (-52)%Z with (1 + -53)%Z. rewrite bpow_plus. reflexivity. }
    rewrite E2. lra.
Qed.

Lemma rsum_nonneg vs : Forall (fun v => 0 <= v) vs -> 0 <= rsum vs.
Proof. induction 1; cbn; lra. Qed.

Lemma adds_nonneg (l : list f64) s : adds l s -> forall vs, Forall2 f64_is l vs -> Forall (fun v => 0 <= v) vs ->
  (1 + uro) ^ length l * rsum vs <= bpow radix2 1000 ->
  exists v, f64_is s v /\ close (length l) v (rsum vs) /\ Forall (fun x => x <= v) vs /\ 0 <= v.
Proof.
  induction 1 as [|x|l1 l2 l s1 s2 _ IH1 _ IH2 P]; intros vs Hv Hn Hb.
  - inversion Hv; subst. exists 0. split; [apply (f64_ofZ_is 0); cbn; lia|].
    split; [apply close_refl|]. split; [constructor|lra].
  - inversion Hv as [|? v ? m Hx Hm]; subst. inversion Hm; subst. inversion Hn; subst. exists v. split; [exact Hx|].
    cbn [rsum]. rewrite Rplus_0_r. split; [eapply close_weaken; [|apply close_refl]; lia|].
    split; [repeat constructor; lra|assumption].
  - destruct (Permutation_Forall2 (Permutation_sym P) Hv) as (vs' & P' & Hv').
    destruct (F2_app_l _ _ _ _ Hv') as (v1 & v2 & -> & H1 & H2).
    assert (Hn' : Forall (fun v => 0 <= v) (v1 ++ v2)) by (eapply Permutation_Forall; eassumption).
    apply Forall_app in Hn' as [N1 N2].
    rewrite (rsum_perm _ _ P') in *. rewrite rsum_app in *.
    pose proof (Permutation_length P) as L. rewrite app_length in L. rewrite <- L in *. clear L P Hv Hv'.
    pose proof (rsum_nonneg v1 N1) as A1. pose proof (rsum_nonneg v2 N2) as A2. pose proof uro_pos as U.
    set (n1 := length l1) in *. set (n2 := length l2) in *.
    assert (B1 : (1 + uro) ^ n1 * rsum v1 <= bpow radix2 1000).
    { eapply Rle_trans; [|exact Hb]. pose proof (pow_ge_1 n1). pose proof (pow_mono n1 (n1 + n2) ltac:(lia)).
      apply Rmult_le_compat; lra. }
    assert (B2 : (1 + uro) ^ n2 * rsum v2 <= bpow radix2 1000).
    { eapply Rle_trans; [|exact Hb]. pose proof (pow_ge_1 n2). pose proof (pow_mono n2 (n1 + n2) ltac:(lia)).
      apply Rmult_le_compat; lra. }
    destruct (IH1 v1 H1 N1 B1) as (w1 & F1 & C1 & M1 & W1). destruct (IH2 v2 H2 N2 B2) as (w2 & F2 & C2 & M2 & W2). clear IH1 IH2.
    pose proof (fmt_of _ _ F1) as G1. pose proof (fmt_of _ _ F2) as G2.
    assert (S12 : Rabs (w1 + w2) <= bpow radix2 1000).
    { rewrite Rabs_pos_eq by lra. eapply Rle_trans; [|exact Hb]. rewrite Rmult_plus_distr_l.
      destruct C1 as (t1 & -> & T1). destruct C2 as (t2 & -> & T2).
      pose proof (pow_mono n1 (n1 + n2) ltac:(lia)). pose proof (pow_mono n2 (n1 + n2) ltac:(lia)).
      apply Rplus_le_compat; rewrite Rmult_comm; apply Rmult_le_compat_r; lra. }
    exists (rnd (w1 + w2)). split; [apply add_is; assumption|].
    assert (U1 : w1 <= rnd (w1 + w2)) by (apply round_ge_generic; [typeclasses eauto..|exact G1|lra]).
    assert (U2 : w2 <= rnd (w1 + w2)) by (apply round_ge_generic; [typeclasses eauto..|exact G2|lra]).
    split; [|split; [|lra]].
    2:{ eapply Permutation_Forall; [apply Permutation_sym; exact P'|]. apply Forall_app. split;
        (eapply Forall_impl; [|eassumption]); cbn beta; intros; lra. }
    destruct l1 as [|x1 l1'] eqn:El1.
    { apply F2_length in H1. destruct v1; [|discriminate]. cbn [rsum] in *.
      assert (w1 = 0) as -> by (destruct C1 as (t1 & -> & _); ring).
      rewrite !Rplus_0_l. rewrite rnd_fmt by exact G2. exact C2. }
    destruct l2 as [|x2 l2'] eqn:El2.
    { apply F2_length in H2. destruct v2; [|discriminate]. cbn [rsum] in *.
      assert (w2 = 0) as -> by (destruct C2 as (t2 & -> & _); ring).
      rewrite !Rplus_0_r. rewrite rnd_fmt by exact G1. unfold n2. cbn [length]. rewrite Nat.add_0_r. exact C1. }
    replace (n1 + n2)%nat with (1 + (n1 + n2 - 1))%nat by (unfold n1; cbn; lia).
    eapply close_trans; [apply close_add_rnd; assumption|].
    apply close_plus; [lra|lra| |].
    + eapply close_weaken; [|exact C1]. unfold n2. cbn. lia.
    + eapply close_weaken; [|exact C2]. unfold n1. cbn. lia.
Qed.

Lemma fsum_nonneg xs vs : Forall2 f64_is xs vs -> Forall (fun v => 0 <= v) vs ->
  INR (length xs) * uro <= / 2 -> rsum vs <= bpow radix2 999 ->
  exists s, f64_is (fsum xs) s /\ close (length xs) s (rsum vs) /\ Forall (fun v => v <= s) vs.
Proof.
  intros H Hv Hn Hb.
  pose proof (pow_bound _ Hn) as P. pose proof (rsum_nonneg vs Hv) as S0.
  destruct (adds_nonneg xs (fsum xs) (adds_fsum xs) vs H Hv) as (s & Hs & C & M & _).
  - apply Rle_trans with (2 * rsum vs); [apply Rmult_le_compat_r; lra|].
    change (bpow radix2 1000) with (bpow radix2 (1 + 999)). rewrite bpow_plus. change (bpow radix2 1) with 2. lra.
  - exists s. auto.
Qed.
