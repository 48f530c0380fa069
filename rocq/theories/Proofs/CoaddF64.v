(** The weighted mean and the epoch counts in double arithmetic. *)
From Coq Require Import ZArith List Lia Reals Lra SpecFloat.
From Flocq Require Import Core BinarySingleNaN.
From Coq Require Import List.
From Verif Require Import Lib.Base Lib.Floats Spec.FloatSpec Spec.CoaddSpec Model.Coadd
  Proofs.F64Facts Proofs.RoundSum Proofs.BaseFacts Proofs.CoaddProofs.
Import ListNotations.
Open Scope R_scope.

#[local] Instance Hprec : Prec_gt_0 53 := eq_refl _.
#[local] Instance Hmax : Prec_lt_emax 53 1024 := eq_refl _.
#[local] Instance fexp64_valid : Valid_exp fexp64 := fexp_correct 53 1024 _.
#[local] Instance fexp64_mono : Monotone_exp fexp64 := fexp_monotone 53 1024.

Lemma rsum_total l : rsum l = total l.
Proof. induction l as [|x l IH]; cbn; [reflexivity|]. now rewrite IH. Qed.

Lemma F2_len {A B} (P : A -> B -> Prop) l m : Forall2 P l m -> length l = length m.
Proof. induction 1; cbn; congruence. Qed.

Lemma INR_Z n k : (Z.of_nat n <= 2 ^ k)%Z -> (0 <= k)%Z -> INR n <= bpow radix2 k.
Proof.
  intros H Hk. rewrite INR_IZR_INZ. rewrite <- IZR_Zpower by exact Hk. apply IZR_le. exact H.
Qed.

Lemma small_count n : (Z.of_nat n <= 2 ^ 40)%Z -> INR n * uro <= bpow radix2 (-13).
Proof.
  intros H. apply INR_Z in H; [|lia]. unfold uro.
  change (bpow radix2 (-13)) with (bpow radix2 (40 + -53)). rewrite bpow_plus.
  apply Rmult_le_compat_r; [apply bpow_ge_0|exact H].
Qed.

Lemma total_upper l b : Forall (fun x => x <= b) l -> total l <= INR (length l) * b.
Proof.
  induction 1 as [|x l Hx _ IH]; [cbn; lra|].
  change (total (x :: l)) with (x + total l). cbn [length]. rewrite S_INR. lra.
Qed.

Lemma total_pos_member l x : Forall (fun x => 0 < x) l -> In x l -> x <= total l.
Proof.
  intros H. apply total_ge_member. intros y Hy. rewrite Forall_forall in H. specialize (H y Hy). lra.
Qed.

Lemma B13 : bpow radix2 (-13) <= / 8192.
Proof. right. cbn. lra. Qed.

(** The masked fraction of one image. *)
Lemma unit_fraction_is (x : f64) : valid_binary 53 1024 x = true -> fnan x = false ->
  exists v, f64_is (unit_fraction x) v /\ 0 <= v <= 1.
Proof.
  intros V N. unfold unit_fraction.
  assert (Z0 : f64_is (fzero : f64) 0) by (apply (f64_ofZ_is 0); cbn; lia).
  assert (Z1 : f64_is (fone : f64) 1) by (apply (f64_ofZ_is 1); cbn; lia).
  destruct x as [s|s| |s m e]; try discriminate.
  - exists 0. split; [|lra]. exact Z0.
  - exists 1. split; [|lra]. exact Z1.
  - assert (A : f64_is (fabs (S754_finite s m e : f64)) (Rabs (f64_val (S754_finite s m e)))).
    { split; [exact V|]. split; [reflexivity|]. unfold f64_val. cbn.
      rewrite <- F2R_Zabs. destruct s; reflexivity. }
    set (a := fabs (S754_finite s m e : f64)) in *. set (av := Rabs _) in *.
    assert (P : 0 <= av) by apply Rabs_pos.
    change (@fltb f64 F64Ops a fzero) with (SFltb a fzero). change (@fltb f64 F64Ops fone a) with (SFltb fone a).
    destruct (SFltb a fzero) eqn:E0; [exists 0; split; [exact Z0|lra]|].
    destruct (SFltb fone a) eqn:E1; [exists 1; split; [exact Z1|lra]|].
    exists av. split; [exact A|]. split; [exact P|].
    destruct (Rle_or_lt av 1) as [L|L]; [exact L|].
    pose proof (eq_trans (eq_sym E1) (proj2 (f64_ltb_is _ _ _ _ Z1 A) L)). discriminate.
Qed.

(** ** The normalised weights *)
Section Weights.
Variables (weights : list f64) (ws : list R).
Hypothesis Hw : Forall2 f64_is weights ws.
Hypothesis Hr : Forall (fun w => bpow radix2 (-450) <= w <= bpow radix2 450) ws.
Hypothesis Hn : (Z.of_nat (length ws) <= 2 ^ 40)%Z.

Lemma ws_pos : Forall (fun w => 0 < w) ws.
Proof.
  eapply Forall_impl; [|exact Hr]. intros w [H _]. pose proof (bpow_gt_0 radix2 (-450)). cbn beta. lra.
Qed.

Lemma ws_total : total ws <= bpow radix2 490.
Proof.
  eapply Rle_trans; [apply (total_upper ws (bpow radix2 450))|].
  - eapply Forall_impl; [|exact Hr]. cbn beta. intros w H. lra.
  - change (bpow radix2 490) with (bpow radix2 (40 + 450)). rewrite bpow_plus.
    apply Rmult_le_compat_r; [apply bpow_ge_0|]. apply INR_Z; [exact Hn|lia].
Qed.

Lemma weights_sum : exists s, f64_is (fsum weights) s /\ close (length ws) s (total ws) /\
  Forall (fun w => w <= s) ws.
Proof.
  pose proof (F2_len _ _ _ Hw) as L. rewrite <- L.
  rewrite <- rsum_total. apply fsum_nonneg; [exact Hw| | |].
  - eapply Forall_impl; [|exact ws_pos]. cbn beta. intros; lra.
  - rewrite L. pose proof (small_count _ Hn). pose proof B13. lra.
  - rewrite rsum_total. eapply Rle_trans; [exact ws_total|]. apply bpow_le. lia.
Qed.

Lemma normalised_weights : Forall2 (fun d w => exists p, f64_is d p /\ close (length ws + 1) p (w / total ws) /\
    0 < p <= 1)
  (map (fun w => fdiv w (fsum weights)) weights) ws.
Proof.
  destruct weights_sum as (s & Hs & C & M).
  assert (G : forall xs vs, Forall2 f64_is xs vs -> incl vs ws ->
    Forall2 (fun d w => exists p, f64_is d p /\ close (length ws + 1) p (w / total ws) /\ 0 < p <= 1)
      (map (fun w => fdiv w (fsum weights)) xs) vs).
  { induction 1 as [|x v xs vs Hx _ IH]; intros I; [constructor|]. cbn [map]. constructor.
    2:{ apply IH. intros y Hy. apply I. now right. }
    assert (Iv : In v ws) by (apply I; now left).
    pose proof ws_pos as Pw. rewrite Forall_forall in Pw. pose proof (Pw v Iv) as Pv.
    pose proof Hr as Hr'. rewrite Forall_forall in Hr'. specialize (Hr' v Iv).
    rewrite Forall_forall in M. specialize (M v Iv).
    assert (T : 0 < total ws) by (pose proof (total_pos_member ws v ws_pos Iv); lra).
    assert (Ps : 0 < s) by (eapply close_pos; eassumption).
    assert (Us : s <= bpow radix2 491).
    { destruct C as (t & -> & [Ht0 Ht]). change (bpow radix2 491) with (bpow radix2 (490 + 1)). rewrite bpow_plus.
      change (bpow radix2 1) with 2. pose proof ws_total.
      pose proof (small_count _ Hn) as Q. pose proof B13 as B.
      pose proof (pow_bound (length ws) ltac:(lra)) as Pb.
      apply Rmult_le_compat; try lra.
      pose proof (inv_pow_pos (length ws)). lra. }
    assert (Q1 : v / s <= 1).
    { apply Rmult_le_reg_r with s; [exact Ps|]. unfold Rdiv. rewrite Rmult_assoc, Rinv_l by lra. lra. }
    assert (Q0 : bpow radix2 (-941) <= v / s).
    { apply Rmult_le_reg_r with s; [exact Ps|]. unfold Rdiv. rewrite Rmult_assoc, Rinv_l by lra.
      rewrite Rmult_1_r. apply Rle_trans with (bpow radix2 (-941) * bpow radix2 491).
      - apply Rmult_le_compat_l; [apply bpow_ge_0|exact Us].
      - rewrite <- bpow_plus. apply Hr'. }
    pose proof (bpow_gt_0 radix2 (-941)) as B0.
    assert (B1 : 1 <= bpow radix2 1000) by (change 1 with (bpow radix2 0); apply bpow_le; lia).
    assert (Aq : Rabs (v / s) = v / s) by (apply Rabs_pos_eq; lra).
    exists (rnd (v / s)). split; [|split].
    - apply div_is; [exact Hx|exact Hs|lra|]. rewrite Aq. lra.
    - replace (length ws + 1)%nat with (1 + length ws)%nat by lia.
      apply close_trans with (v / s).
      + apply close_rnd. rewrite Aq. eapply Rle_trans; [|exact Q0]. apply bpow_le. lia.
      + apply (close_div 0 (length ws)); [apply close_refl|exact C].
    - split.
      + apply (close_pos 1 _ (v / s)); [|lra]. apply close_rnd. rewrite Aq. eapply Rle_trans; [|exact Q0].
        apply bpow_le. lia.
      + apply round_le_generic; [typeclasses eauto..| |exact Q1].
        change 1 with (bpow radix2 0). apply generic_format_bpow. cbn. lia. }
  apply G; [exact Hw|apply incl_refl].
Qed.

(** ** A weighted mean *)
Lemma running_ssum (l : list (f64 * f64)) :
  running_sum l = ssum (map (fun p => fmul (fst p) (snd p)) l).
Proof.
  unfold running_sum, ssum. generalize (fzero : f64) as a.
  induction l as [|p l IH]; intros a; cbn [fold_left map]; [reflexivity|apply IH].
Qed.

Definition pw (k : nat) : R := (1 + uro) ^ k - 1.

Lemma close_dev k t : / (1 + uro) ^ k <= t <= (1 + uro) ^ k -> Rabs (t - 1) <= pw k.
Proof.
  intros H. unfold pw. pose proof (pow_ge_1 k) as P. apply Rabs_le. split; [|lra].
  assert (2 - (1 + uro) ^ k <= / (1 + uro) ^ k).
  { apply Rmult_le_reg_r with ((1 + uro) ^ k); [lra|]. rewrite Rinv_l by lra.
    set (p := (1 + uro) ^ k) in *. pose proof (Rle_0_sqr (p - 1)) as Q. unfold Rsqr in Q. lra. }
  lra.
Qed.

(** Products of data and normalised weights. *)
Lemma product_terms ds xs : Forall2 f64_is ds xs -> Forall (fun x => Rabs x <= bpow radix2 450) xs ->
  forall nw vs, Forall2 (fun d w => exists p, f64_is d p /\ close (length ws + 1) p (w / total ws) /\ 0 < p <= 1) nw vs ->
  Forall (fun w => 0 <= w) vs -> 0 < total ws -> length xs = length vs ->
  let k := (length ws + 2)%nat in
  let q := weighted_sum (combine xs vs) / total ws in
  let qa := weighted_sum (combine (map Rabs xs) vs) / total ws in
  exists ts, Forall2 f64_is (map (fun p => fmul (fst p) (snd p)) (combine ds nw)) ts /\
    Rabs (rsum ts - q) <= pw k * qa + INR (length vs) * bpow radix2 (-1075) /\
    asum ts <= (1 + uro) ^ k * qa + INR (length vs) * bpow radix2 (-1075) /\
    Forall (fun t => Rabs t <= bpow radix2 451) ts /\
    (Forall (fun x => 0 <= x) xs -> Forall (fun t => 0 <= t) ts).
Proof.
  cbv zeta. induction 1 as [|d x ds xs Hd _ IH]; intros Hx nw vs Hnw Hvs T L.
  - destruct vs; [|discriminate]. inversion Hnw; subst. exists []. cbn. unfold asum. cbn.
    split; [constructor|]. unfold Rdiv. rewrite Rmult_0_l, Rminus_0_r, Rabs_R0. repeat split; try lra; constructor.
  - destruct Hnw as [|w v nw vs (p & Hp & C & P0) Hnw]; [discriminate|]. inversion Hvs as [|? ? Hv Hvs']; subst.
    inversion Hx as [|? ? Hx0 Hxs]; subst. cbn in L. injection L as L.
    destruct (IH Hxs nw vs Hnw Hvs' T L) as (ts & Ht & E1 & E2 & E3 & E4). clear IH.
    destruct (rnd_error_gen (x * p)) as (e & h & He & Hh & E).
    assert (A : Rabs (x * p) <= bpow radix2 450).
    { rewrite Rabs_mult, (Rabs_pos_eq p) by lra. pose proof (Rabs_pos x).
      apply Rle_trans with (Rabs x * 1); [apply Rmult_le_compat_l; lra|]. lra. }
    exists (rnd (x * p) :: ts). split; [|split; [|split; [|split]]].
    + cbn [combine map fst snd]. constructor; [|exact Ht]. apply mul_is; [exact Hd|exact Hp|].
      eapply Rle_trans; [exact A|]. apply bpow_le. lia.
    + cbn [rsum combine map weighted_sum fold_right fst snd length] in *. rewrite S_INR.
      fold (weighted_sum (combine xs vs)). fold (weighted_sum (combine (map Rabs xs) vs)).
      destruct C as (t & -> & Htt).
      assert (D : Rabs (t * (1 + e) - 1) <= pw (length ws + 2)).
      { apply close_dev. replace (length ws + 2)%nat with ((length ws + 1) + 1)%nat by lia.
        rewrite pow_add, Rinv_mult. pose proof (close_1 e He) as C1.
        pose proof (inv_pow_pos (length ws + 1)). pose proof (inv_pow_pos 1).
        split; apply Rmult_le_compat; lra. }
      assert (Q : 0 <= Rabs x * (v / total ws)).
      { apply Rmult_le_pos; [apply Rabs_pos|]. apply Rmult_le_pos; [exact Hv|].
        left. now apply Rinv_0_lt_compat. }
      assert (F : rnd (x * (v / total ws * t)) - x * v / total ws
                  = (t * (1 + e) - 1) * (x * (v / total ws)) + h).
      { rewrite E. field. lra. }
      replace (rnd (x * (v / total ws * t)) + rsum ts - (x * v + weighted_sum (combine xs vs)) / total ws)
        with ((rnd (x * (v / total ws * t)) - x * v / total ws)
              + (rsum ts - weighted_sum (combine xs vs) / total ws)) by (field; lra).
      rewrite F.
      assert (G : Rabs ((t * (1 + e) - 1) * (x * (v / total ws)) + h)
                  <= pw (length ws + 2) * (Rabs x * (v / total ws)) + bpow radix2 (-1075)).
      { eapply Rle_trans; [apply Rabs_triang|]. apply Rplus_le_compat; [|exact Hh].
        rewrite Rabs_mult, Rabs_mult.
        rewrite (Rabs_pos_eq (v / total ws)).
        2:{ apply Rmult_le_pos; [exact Hv|]. left. now apply Rinv_0_lt_compat. }
        apply Rmult_le_compat_r; [exact Q|exact D]. }
      eapply Rle_trans; [apply Rabs_triang|].
      replace (pw (length ws + 2) * ((Rabs x * v + weighted_sum (combine (map Rabs xs) vs)) / total ws)
               + (INR (length vs) + 1) * bpow radix2 (-1075))
        with ((pw (length ws + 2) * (Rabs x * (v / total ws)) + bpow radix2 (-1075))
              + (pw (length ws + 2) * (weighted_sum (combine (map Rabs xs) vs) / total ws)
                 + INR (length vs) * bpow radix2 (-1075))) by (field; lra).
      apply Rplus_le_compat; [exact G|exact E1].
    + rewrite asum_cons. cbn [combine map weighted_sum fold_right fst snd length] in *. rewrite S_INR.
      fold (weighted_sum (combine (map Rabs xs) vs)).
      destruct C as (t & -> & Htt).
      assert (Q : 0 <= v / total ws).
      { apply Rmult_le_pos; [exact Hv|]. left. now apply Rinv_0_lt_compat. }
      assert (G : Rabs (rnd (x * (v / total ws * t)))
                  <= (1 + uro) ^ (length ws + 2) * (Rabs x * (v / total ws)) + bpow radix2 (-1075)).
      { rewrite E. eapply Rle_trans; [apply Rabs_triang|]. apply Rplus_le_compat; [|exact Hh].
        rewrite !Rabs_mult, (Rabs_pos_eq (v / total ws) Q).
        replace (length ws + 2)%nat with ((length ws + 1) + 1)%nat by lia. rewrite pow_add.
        pose proof (close_1 e He) as C1. pose proof (inv_pow_pos 1). pose proof (inv_pow_pos (length ws + 1)).
        rewrite (Rabs_pos_eq (1 + e)) by lra. rewrite (Rabs_pos_eq t) by lra.
        replace (Rabs x * (v / total ws * t) * (1 + e)) with ((t * (1 + e)) * (Rabs x * (v / total ws))) by ring.
        apply Rmult_le_compat_r; [apply Rmult_le_pos; [apply Rabs_pos|exact Q]|].
        apply Rmult_le_compat; lra. }
      replace ((1 + uro) ^ (length ws + 2) * ((Rabs x * v + weighted_sum (combine (map Rabs xs) vs)) / total ws)
               + (INR (length vs) + 1) * bpow radix2 (-1075))
        with (((1 + uro) ^ (length ws + 2) * (Rabs x * (v / total ws)) + bpow radix2 (-1075))
              + ((1 + uro) ^ (length ws + 2) * (weighted_sum (combine (map Rabs xs) vs) / total ws)
                 + INR (length vs) * bpow radix2 (-1075))) by (field; lra).
      apply Rplus_le_compat; [exact G|exact E2].
    + constructor; [|exact E3].
      apply Rle_trans with (bpow radix2 450); [|apply bpow_le; lia].
      apply abs_round_le_generic; [typeclasses eauto..| |exact A]. apply generic_format_bpow. cbn. lia.
    + intros Hnn. inversion Hnn as [|? ? N1 N2]; subst. constructor; [|exact (E4 N2)].
      rewrite <- rnd_0. apply round_le; [typeclasses eauto..|]. apply Rmult_le_pos; lra.
Qed.

Lemma asum_upper l b : Forall (fun t => Rabs t <= b) l -> asum l <= INR (length l) * b.
Proof.
  intros H. unfold asum. rewrite rsum_total, <- (map_length Rabs l). apply total_upper.
  induction H; constructor; assumption.
Qed.

Theorem mean_of_doubles ds : length ds = length ws -> ws <> [] ->
  averages ws ds (running_sum (combine ds (map (fun w => fdiv w (fsum weights)) weights))).
Proof.
  intros L Hne xs Hxs Hb.
  assert (T : 0 < total ws).
  { destruct ws as [|w0 ws0] eqn:Ew; [congruence|]. rewrite <- Ew in *.
    pose proof (total_pos_member ws w0 ws_pos ltac:(rewrite Ew; now left)) as T0.
    pose proof ws_pos as P. rewrite Forall_forall in P. specialize (P w0 ltac:(rewrite Ew; now left)). lra. }
  assert (Hnn : Forall (fun w => 0 <= w) ws).
  { eapply Forall_impl; [|exact ws_pos]. cbn beta. intros; lra. }
  assert (Lx : length xs = length ws) by (rewrite <- (F2_len _ _ _ Hxs); exact L).
  destruct (product_terms ds xs Hxs Hb _ ws normalised_weights Hnn T Lx) as (ts & Ht & E1 & E2 & E3 & _).
  pose proof (small_count _ Hn) as Q. pose proof B13 as B. pose proof uro_pos as U.
  assert (N0 : 0 <= INR (length ws)) by apply pos_INR.
  assert (Lt : length ts = length ws).
  { rewrite <- (F2_len _ _ _ Ht), map_length, combine_length, map_length, (F2_len _ _ _ Hw). lia. }
  destruct (ssum_error _ ts Ht) as (s & Hs & Es).
  { rewrite (F2_len _ _ _ Ht), Lt. lra. }
  { eapply Rle_trans; [apply (asum_upper ts (bpow radix2 451)); exact E3|].
    apply Rle_trans with (bpow radix2 (40 + 451)).
    - rewrite bpow_plus. apply Rmult_le_compat_r; [apply bpow_ge_0|]. apply INR_Z; [|lia].
      now rewrite Lt.
    - apply bpow_le. lia. }
  rewrite (F2_len _ _ _ Ht), Lt in Es.
  exists s. split; [rewrite running_ssum; exact Hs|].
  unfold weighted_mean. set (q := weighted_sum (combine xs ws) / total ws) in *.
  set (qa := weighted_sum (combine (map Rabs xs) ws) / total ws) in *.
  set (n := INR (length ws)) in *.
  assert (Qa : 0 <= qa).
  { unfold qa. apply Rmult_le_pos; [|left; now apply Rinv_0_lt_compat].
    clear - Hnn. revert xs. induction Hnn as [|w l Hw0 _ IH]; intros [|x xs]; cbn; try lra.
    pose proof (Rmult_le_pos _ _ (Rabs_pos x) Hw0). specialize (IH xs). unfold weighted_sum in IH. lra. }
  assert (E52 : bpow radix2 (-52) = 2 * uro).
  { unfold uro. change (-52)%Z with (1 + -53)%Z. rewrite bpow_plus. reflexivity. }
  rewrite E52 in *.
  assert (U1 : uro <= / 8192 / 2).
  { unfold uro. apply Rle_trans with (bpow radix2 (-14)); [apply bpow_le; lia|]. right. cbn. lra. }
  assert (K : INR (length ws + 2) * uro <= / 2).
  { rewrite plus_INR. cbn [INR]. fold n. lra. }
  pose proof (pow_bound (length ws + 2) K) as Pb. unfold pw in E1.
  rewrite plus_INR in Pb. cbn [INR] in Pb. fold n in Pb. replace (1 + 1) with 2 in Pb by ring.
  set (P := (1 + uro) ^ (length ws + 2)) in *.
  set (eta := bpow radix2 (-1075)) in *.
  assert (H0 : 0 < eta) by apply bpow_gt_0.
  assert (Heta : n * eta <= bpow radix2 (-1001)).
  { apply Rle_trans with (bpow radix2 (40 + -1075)); [|apply bpow_le; lia].
    rewrite bpow_plus. apply Rmult_le_compat_r; [apply bpow_ge_0|]. apply INR_Z; [exact Hn|lia]. }
  assert (He2 : bpow radix2 (-1000) = 2 * bpow radix2 (-1001)).
  { change (-1000)%Z with (1 + -1001)%Z. rewrite bpow_plus. reflexivity. }
  rewrite He2. set (et := bpow radix2 (-1001)) in *.
  replace (s - q) with ((s - rsum ts) + (rsum ts - q)) by ring.
  eapply Rle_trans; [apply Rabs_triang|].
  assert (NU : 0 <= n * uro) by (apply Rmult_le_pos; lra).
  assert (S1 : n * (2 * uro) * asum ts <= n * (2 * uro) * (P * qa + n * eta)).
  { apply Rmult_le_compat_l; [lra|exact E2]. }
  assert (P2 : P <= 2) by lra.
  assert (S2 : n * (2 * uro) * (P * qa + n * eta) <= n * (2 * uro) * (2 * qa) + et).
  { rewrite Rmult_plus_distr_l. apply Rplus_le_compat.
    - apply Rmult_le_compat_l; [lra|]. apply Rmult_le_compat_r; lra.
    - apply Rle_trans with (1 * (n * eta)); [|lra]. apply Rmult_le_compat_r; [|lra].
      apply Rmult_le_pos; lra. }
  assert (S3 : (P - 1) * qa <= (2 * (n + 2) * uro) * qa) by (apply Rmult_le_compat_r; lra).
  assert (S4 : n * (2 * uro) * (2 * qa) + (2 * (n + 2) * uro) * qa
               = (3 * n + 2) * (2 * uro) * qa) by ring.
  lra.
Qed.

Theorem mean_of_nonneg ds xs : ws <> [] ->
  Forall2 f64_is ds xs -> length xs = length ws ->
  Forall (fun x => 0 <= x <= 1) xs ->
  exists v, f64_is (running_sum (combine ds (map (fun w => fdiv w (fsum weights)) weights))) v /\
    0 <= v <= 1 + (3 * INR (length ws) + 3) * bpow radix2 (-52).
Proof.
  intros Hne Hxs Lx Hx.
  assert (L : length ds = length ws) by (rewrite (F2_len _ _ _ Hxs); exact Lx).
  assert (T : 0 < total ws).
  { destruct ws as [|w0 ws0] eqn:Ew; [congruence|]. rewrite <- Ew in *.
    pose proof (total_pos_member ws w0 ws_pos ltac:(rewrite Ew; now left)) as T0.
    pose proof ws_pos as P. rewrite Forall_forall in P. specialize (P w0 ltac:(rewrite Ew; now left)). lra. }
  assert (Hnn : Forall (fun w => 0 <= w) ws).
  { eapply Forall_impl; [|exact ws_pos]. cbn beta. intros; lra. }
  assert (Hb : Forall (fun x => Rabs x <= bpow radix2 450) xs).
  { eapply Forall_impl; [|exact Hx]. cbn beta. intros x X. rewrite Rabs_pos_eq by lra.
    apply Rle_trans with 1; [lra|]. change 1 with (bpow radix2 0). apply bpow_le. lia. }
  destruct (product_terms ds xs Hxs Hb _ ws normalised_weights Hnn T Lx) as (ts & Ht & _ & _ & E3 & E4).
  pose proof (small_count _ Hn) as Q. pose proof B13 as B.
  assert (Lt : length ts = length ws).
  { rewrite <- (F2_len _ _ _ Ht), map_length, combine_length, map_length, (F2_len _ _ _ Hw). lia. }
  assert (N4 : Forall (fun t => 0 <= t) ts).
  { apply E4. eapply Forall_impl; [|exact Hx]. cbn beta. intros; lra. }
  destruct (ssum_nonneg _ ts Ht N4) as (s & Hs & C & _).
  { rewrite (F2_len _ _ _ Ht), Lt. lra. }
  { eapply Rle_trans; [apply Rle_abs|]. eapply Rle_trans; [apply rsum_le_asum|].
    eapply Rle_trans; [apply (asum_upper ts (bpow radix2 451)); exact E3|].
    apply Rle_trans with (bpow radix2 (40 + 451)).
    - rewrite bpow_plus. apply Rmult_le_compat_r; [apply bpow_ge_0|]. apply INR_Z; [|lia].
      now rewrite Lt.
    - apply bpow_le. lia. }
  destruct (mean_of_doubles ds L Hne xs Hxs Hb) as (v & Hv & Ev).
  assert (v = s) as ->.
  { rewrite running_ssum in Hv. destruct Hv as (_ & _ & <-). destruct Hs as (_ & _ & <-). reflexivity. }
  exists s. split; [exact Hv|]. split.
  - apply (close_nonneg _ _ _ C). clear - N4. induction N4; cbn; lra.
  - assert (Am : map Rabs xs = xs).
    { clear - Hx. induction Hx as [|x l H _ IH]; cbn; [reflexivity|]. rewrite IH, Rabs_pos_eq by lra. reflexivity. }
    rewrite Am in Ev.
    assert (M1 : weighted_mean xs ws <= 1).
    { unfold weighted_mean. apply Rmult_le_reg_r with (total ws); [exact T|]. unfold Rdiv.
      rewrite Rmult_assoc, Rinv_l, Rmult_1_l, Rmult_1_r by lra.
      clear - Hx Hnn Lx. revert xs Lx Hx. induction Hnn as [|w l Hw0 _ IH]; intros [|x xs] L Hx; try discriminate; cbn.
      - lra.
      - inversion Hx; subst. injection L as L. specialize (IH xs L H2). unfold weighted_sum, total in IH. nra. }
    assert (M0 : 0 <= weighted_mean xs ws).
    { unfold weighted_mean. apply Rmult_le_pos; [|left; now apply Rinv_0_lt_compat].
      clear - Hx Hnn. revert xs Hx. induction Hnn as [|w l Hw0 _ IH]; intros [|x xs] Hx; cbn; try lra.
      inversion Hx; subst. specialize (IH xs H2). unfold weighted_sum in IH. nra. }
    assert (N0 : 0 <= INR (length ws)) by apply pos_INR.
    assert (B0 : 0 < bpow radix2 (-52)) by apply bpow_gt_0.
    assert (Bm : bpow radix2 (-1000) <= bpow radix2 (-52)) by (apply bpow_le; lia).
    apply Rabs_le_inv in Ev. destruct Ev as [_ Ev].
    assert (K : (3 * INR (length ws) + 2) * bpow radix2 (-52) * weighted_mean xs ws
                <= (3 * INR (length ws) + 2) * bpow radix2 (-52) * 1).
    { apply Rmult_le_compat_l; [apply Rmult_le_pos; lra|exact M1]. }
    lra.
Qed.

(** ** The epoch counts *)
Lemma fmax_is (x y : f64) v w : f64_is x v -> f64_is y w -> f64_is (fmax x y) (Rmax v w).
Proof.
  intros Hx Hy. unfold fmax. pose proof (f64_ltb_is x y v w Hx Hy) as E.
  change (@fltb f64 F64Ops x y) with (SFltb x y). unfold Rmax.
  destruct (SFltb x y); destruct (Rle_dec v w) as [L|L].
  - exact Hy.
  - destruct E as [E _]. specialize (E eq_refl). lra.
  - destruct (Rle_lt_or_eq_dec v w L) as [K|K]; [|subst; exact Hx].
    destruct E as [_ E]. specialize (E K). discriminate.
  - exact Hx.
Qed.

Lemma amax_is xs vs : Forall2 f64_is xs vs -> forall x v, f64_is x v ->
  exists m, f64_is (fold_left fmax xs x) m /\ largest (v :: vs) m.
Proof.
  induction 1 as [|y w xs vs Hy _ IH]; intros x v Hx; cbn [fold_left].
  - exists v. split; [exact Hx|]. split; [now left|]. intros z [->|[]]. lra.
  - destruct (IH _ _ (fmax_is _ _ _ _ Hx Hy)) as (m & Hm & I & M). exists m. split; [exact Hm|].
    assert (MM : Rmax v w <= m) by (apply M; now left).
    split.
    + destruct I as [I|I]; [|right; now right]. rewrite <- I. unfold Rmax.
      destruct (Rle_dec v w); [right; now left|now left].
    + intros z [<-|[<-|Hz]].
      * eapply Rle_trans; [apply Rmax_l|exact MM].
      * eapply Rle_trans; [apply Rmax_r|exact MM].
      * apply M. now right.
Qed.

Theorem epochs_of_doubles : ws <> [] -> exists eff v,
  epoch_counts weights = (1%Z, Z.of_nat (length weights), eff) /\ f64_is eff v /\
  1 <= v <= INR (length weights) * (1 + (INR (length weights) + 1) * bpow radix2 (-52)).
Proof.
  intros Hne. destruct weights_sum as (s & Hs & C & M).
  assert (Am : exists m, f64_is (amax weights) m /\ largest ws m).
  { clear - Hw Hne. destruct Hw as [|x v xs vs Hx Hxs]; [congruence|]. apply amax_is; assumption. }
  destruct Am as (m & Hm & Im & Lm).
  pose proof ws_pos as P. rewrite Forall_forall in P. pose proof (P m Im) as Pm.
  pose proof M as M'. rewrite Forall_forall in M'. pose proof (M' m Im) as Ms.
  rewrite (F2_len _ _ _ Hw). set (n := INR (length ws)).
  pose proof (total_upper ws m ltac:(apply Forall_forall; exact Lm)) as T. fold n in T.
  pose proof (small_count _ Hn) as Q. pose proof B13 as B. pose proof uro_pos as U.
  assert (U1 : uro <= / 8192 / 2).
  { unfold uro. apply Rle_trans with (bpow radix2 (-14)); [apply bpow_le; lia|]. right. cbn. lra. }
  assert (N0 : 0 <= n) by apply pos_INR.
  pose proof (pow_bound (length ws) ltac:(lra)) as Pb. fold n in Pb, Q.
  assert (N1 : 1 <= n).
  { unfold n. destruct ws; [congruence|]. cbn [length]. rewrite S_INR. pose proof (pos_INR (length l)). lra. }
  assert (Us : s <= n * m * (1 + uro) ^ length ws).
  { destruct C as (t & -> & [_ Ht]). pose proof (pow_ge_1 (length ws)).
    assert (0 < total ws) by (pose proof (total_pos_member ws m ws_pos Im); lra).
    apply Rle_trans with (total ws * (1 + uro) ^ length ws).
    - apply Rmult_le_compat_l; lra.
    - apply Rmult_le_compat_r; lra. }
  assert (Q1 : 1 <= s / m).
  { apply Rmult_le_reg_r with m; [exact Pm|]. unfold Rdiv. rewrite Rmult_assoc, Rinv_l by lra. lra. }
  assert (Q2 : s / m <= n * (1 + uro) ^ length ws).
  { apply Rmult_le_reg_r with m; [exact Pm|]. unfold Rdiv. rewrite Rmult_assoc, Rinv_l by lra. lra. }
  assert (Q3 : s / m <= bpow radix2 41).
  { eapply Rle_trans; [exact Q2|]. change (bpow radix2 41) with (bpow radix2 (40 + 1)). rewrite bpow_plus.
    change (bpow radix2 1) with 2. pose proof (pow_ge_1 (length ws)).
    apply Rmult_le_compat; try lra. apply INR_Z; [exact Hn|lia]. }
  assert (Aq : Rabs (s / m) = s / m) by (apply Rabs_pos_eq; lra).
  exists (fdiv (fsum weights) (amax weights)), (rnd (s / m)). split; [|split].
  - rewrite <- (F2_len _ _ _ Hw). clear - Hw Hne. destruct Hw; [congruence|reflexivity].
  - apply div_is; [exact Hs|exact Hm|lra|]. rewrite Aq. eapply Rle_trans; [exact Q3|]. apply bpow_le. lia.
  - split.
    + apply round_ge_generic; [typeclasses eauto..| |exact Q1].
      change 1 with (bpow radix2 0). apply generic_format_bpow. cbn. lia.
    + assert (B1 : bpow radix2 (-1000) <= 1) by (change 1 with (bpow radix2 0); apply bpow_le; lia).
      destruct (close_rnd (s / m) ltac:(rewrite Aq; lra)) as (t & -> & [_ Ht]).
      assert (K : INR (length ws + 1) * uro <= / 2).
      { rewrite plus_INR. cbn [INR]. fold n. lra. }
      pose proof (pow_bound (length ws + 1) K) as Pb1. rewrite plus_INR in Pb1. cbn [INR] in Pb1. fold n in Pb1.
      assert (E52 : bpow radix2 (-52) = 2 * uro).
      { unfold uro. change (-52)%Z with (1 + -53)%Z. rewrite bpow_plus. reflexivity. }
      rewrite E52. pose proof (pow_ge_1 (length ws)).
      apply Rle_trans with (n * (1 + uro) ^ length ws * (1 + uro) ^ 1).
      * apply Rle_trans with (s / m * (1 + uro) ^ 1); [apply Rmult_le_compat_l; lra|].
        apply Rmult_le_compat_r; [pose proof (pow_ge_1 1); lra|exact Q2].
      * rewrite Rmult_assoc, <- pow_add. apply Rmult_le_compat_l; lra.
Qed.
End Weights.
