(** The cells of the slices in double precision. *)
From Coq Require Import ZArith List Bool Lia Reals Lra SpecFloat Permutation.
From Flocq Require Import Core BinarySingleNaN Relative.
From Coq Require Import List.
From Verif Require Import Lib.Base Lib.Floats Model.Order Spec.FloatSpec Spec.OrderSpec
  Proofs.BaseFacts Proofs.F64Facts Proofs.RoundSum Proofs.LanczosF64 Proofs.OrderProofs.
Import ListNotations.
Open Scope R_scope.

#[local] Instance Hprec : Prec_gt_0 53 := eq_refl _.
#[local] Instance Hmax : Prec_lt_emax 53 1024 := eq_refl _.
#[local] Instance fexp64_valid : Valid_exp fexp64 := fexp_correct 53 1024 _.
#[local] Instance fexp64_mono : Monotone_exp fexp64 := fexp_monotone 53 1024.

(** The gap below a positive number of the format. *)
Lemma gap (v b : R) : generic_format radix2 fexp64 v -> generic_format radix2 fexp64 b -> 0 < v < b ->
  bpow radix2 (-53) * b <= b - v.
Proof.
  intros Fv Fb [V0 VB]. set (u := bpow radix2 (-53)).
  assert (U : 0 < u) by apply bpow_gt_0.
  assert (U1 : u <= 1) by (apply (bpow_le radix2 (-53) 0); lia).
  set (e := mag radix2 v). set (p := bpow radix2 e).
  assert (P0 : 0 < p) by apply bpow_gt_0.
  assert (VP : v < p).
  { rewrite <- (Rabs_pos_eq v) by lra. apply bpow_mag_gt. }
  assert (UL : u * p <= ulp radix2 fexp64 v).
  { rewrite ulp_neq_0 by lra. unfold u, p, cexp. rewrite <- bpow_plus. apply bpow_le. unfold fexp64, SpecFloat.fexp, SpecFloat.emin. fold e. lia. }
  assert (SC : succ radix2 fexp64 v = v + ulp radix2 fexp64 v) by (apply succ_eq_pos; lra).
  assert (G1 : v + u * p <= b).
  { assert (succ radix2 fexp64 v <= b) by (apply (@succ_le_lt radix2 fexp64 fexp64_valid); assumption). lra. }
  destruct (Rle_lt_dec b p) as [L|L]; [nra|].
  assert (Fp : generic_format radix2 fexp64 p).
  { destruct (Z_le_gt_dec (-1073) e) as [Le|Le].
    - apply generic_format_bpow. unfold fexp64, SpecFloat.fexp, SpecFloat.emin. lia.
    - exfalso. assert (p <= bpow radix2 (-1074)) by (apply bpow_le; lia).
      assert (bpow radix2 (-1074) <= ulp radix2 fexp64 v).
      { rewrite ulp_neq_0 by lra. apply bpow_le. unfold cexp, fexp64, SpecFloat.fexp, SpecFloat.emin. lia. }
      pose proof (generic_format_ge_bpow radix2 fexp64 (-1074)) as G.
      specialize (G ltac:(intros z; unfold fexp64, SpecFloat.fexp, SpecFloat.emin; lia) v V0 Fv). lra. }
  assert (succ radix2 fexp64 v <= p) by (apply (@succ_le_lt radix2 fexp64 fexp64_valid); assumption). nra.
Qed.

(** A quotient is not rounded up to an integer. *)
Lemma below (v d : R) (k : Z) : generic_format radix2 fexp64 v -> generic_format radix2 fexp64 (IZR k * d) ->
  0 < d -> (1 <= k <= 8)%Z -> v < IZR k * d -> rnd (v / d) < IZR k.
Proof.
  intros Fv Fb D0 K H. destruct (Rlt_le_dec (rnd (v / d)) (IZR k)) as [|C]; [assumption|exfalso].
  assert (K1 : 1 <= IZR k) by (apply IZR_le; lia).
  set (q := v / d) in *. assert (Ev : v = q * d) by (unfold q; field; lra).
  assert (Q1 : 1 / 2 < q).
  { destruct (Rlt_le_dec (1 / 2) q) as [|L]; [assumption|exfalso].
    assert (RQ : rnd q <= rnd (1 / 2)) by (apply round_le; [typeclasses eauto..|exact L]).
    rewrite (rnd_id (1 / 2)) in RQ; [lra|].
    replace (1 / 2) with (bpow radix2 (-1)) by (change (bpow radix2 (-1)) with (/ 2); lra).
    apply generic_format_bpow. unfold fexp64, SpecFloat.fexp, SpecFloat.emin. lia. }
  assert (E : Rabs (rnd q - q) <= bpow radix2 (-53) * q).
  { assert (RE : Rabs (rnd q - q) <= / 2 * bpow radix2 (-53 + 1) * Rabs q).
    { apply (relative_error_N_FLT radix2 (-1074) 53 eq_refl). rewrite Rabs_pos_eq by lra.
      apply Rle_trans with (bpow radix2 (-1)); [apply bpow_le; lia|]. change (bpow radix2 (-1)) with (/ 2). lra. }
    rewrite (Rabs_pos_eq q) in RE by lra. rewrite bpow_plus in RE. change (bpow radix2 1) with 2 in RE. lra. }
  assert (V0 : 0 < v < IZR k * d) by (split; [rewrite Ev; apply Rmult_lt_0_compat; lra|assumption]).
  pose proof (gap v (IZR k * d) Fv Fb V0) as G.
  assert (q < IZR k) by (apply Rmult_lt_reg_r with d; lra).
  pose proof (bpow_gt_0 radix2 (-53)) as U.
  apply Rabs_le_inv in E.
  assert (IZR k - q <= bpow radix2 (-53) * q) by lra.
  assert ((IZR k - q) * d <= bpow radix2 (-53) * q * d) by (apply Rmult_le_compat_r; lra).
  assert (bpow radix2 (-53) * (q * d) < bpow radix2 (-53) * (IZR k * d)) by (apply Rmult_lt_compat_l; lra).
  rewrite Ev in G. nra.
Qed.

Open Scope Z_scope.

Lemma eighth (z : Z) : Z.abs z <= 2 ^ 53 -> generic_format radix2 fexp64 (IZR z / 8).
Proof.
  intros H. destruct (Z.eq_dec (Z.abs z) (2 ^ 53)) as [E|E].
  - assert (z = 2 ^ 53 \/ z = - 2 ^ 53) as [->| ->] by lia.
    + replace (IZR (2 ^ 53) / 8)%R with (bpow radix2 50); [apply generic_format_bpow; unfold fexp64, SpecFloat.fexp, SpecFloat.emin; lia|].
      change (bpow radix2 50) with (IZR (2 ^ 50)). replace (2 ^ 53) with (2 ^ 50 * 8) by reflexivity. rewrite mult_IZR. field.
    + replace (IZR (- 2 ^ 53) / 8)%R with (- bpow radix2 50)%R.
      * apply generic_format_opp, generic_format_bpow. unfold fexp64, SpecFloat.fexp, SpecFloat.emin. lia.
      * change (bpow radix2 50) with (IZR (2 ^ 50)). replace (- 2 ^ 53) with (- (2 ^ 50 * 8)) by reflexivity. rewrite opp_IZR, mult_IZR. field.
  - replace (IZR z / 8)%R with (F2R (Float radix2 z (-3))).
    + apply generic_format_FLT. exists (Float radix2 z (-3)); [reflexivity| |cbn; lia].
      cbn [Fnum]. change (radix2 ^ 53) with (2 ^ 53). lia.
    + unfold F2R. cbn [Fnum Fexp]. change (bpow radix2 (-3)) with (/ 8)%R. reflexivity.
Qed.

Lemma cell_index_f64 (v : f64) (x : R) (n k : Z) : f64_is v x -> (Rabs x <= bpow radix2 900)%R -> 0 < n <= 2 ^ 50 ->
  (cell_index v (fdiv (fofZ n) (fofZ ph_order)) = Ok k <-> in_interval n x k).
Proof.
  intros Hv Bx Hn. set (d := (IZR n / 8)%R).
  assert (N1 : (1 <= IZR n)%R) by (apply IZR_le; lia).
  assert (N2 : (IZR n <= IZR (2 ^ 50))%R) by (apply IZR_le; lia).
  assert (Hd : (1 / 8 <= d)%R) by (unfold d; lra).
  assert (B : (1000 * bpow radix2 900 <= bpow radix2 1000)%R).
  { apply Rle_trans with (bpow radix2 10 * bpow radix2 900)%R.
    - apply Rmult_le_compat_r; [apply bpow_ge_0|]. change (bpow radix2 10) with 1024%R. lra.
    - rewrite <- bpow_plus. apply bpow_le. lia. }
  assert (B0 : (IZR (2 ^ 50) <= bpow radix2 900)%R) by (change (IZR (2 ^ 50)) with (bpow radix2 50); apply bpow_le; lia).
  assert (Id : f64_is (fdiv (fofZ n : f64) (fofZ ph_order)) d).
  { rewrite <- (rnd_id d) by (apply eighth; lia).
    apply div_is; [apply f64_ofZ_is; lia|apply (f64_ofZ_is 8); lia|lra|]. rewrite Rabs_pos_eq by lra.
    change (IZR 8) with 8%R. lra. }
  assert (Iq : f64_is (fdiv v (fdiv (fofZ n : f64) (fofZ ph_order))) (rnd (x / d))).
  { apply div_is; [exact Hv|exact Id|lra|]. unfold Rdiv. rewrite Rabs_mult, Rabs_inv, (Rabs_pos_eq d) by lra.
    assert (/ d <= 8)%R. { replace 8%R with (/ (1 / 8))%R by field. apply Rinv_le; lra. }
    assert (Rabs x * / d <= bpow radix2 900 * 8)%R.
    { apply Rmult_le_compat; try assumption; [apply Rabs_pos|]. left. apply Rinv_0_lt_compat. lra. }
    lra. }
  unfold cell_index. change (@ftrunc f64 F64Ops) with f64_trunc. cbn zeta. rewrite (f64_trunc_is _ _ Iq).
  unfold ph_order. set (q := rnd (x / d)) in *.
  assert (T0 : forall m, 1 <= m <= 8 -> ((IZR m <= q)%R <-> (IZR m * d <= x)%R)).
  { intros m Hm. split; intros H.
    - destruct (Rlt_le_dec x (IZR m * d)) as [L|L]; [exfalso|exact L].
      assert (q < IZR m)%R; [|lra]. apply below; try assumption; try lra.
      + exact (fmt_of _ _ Hv).
      + unfold d. replace (IZR m * (IZR n / 8))%R with (IZR (m * n) / 8)%R by (rewrite mult_IZR; field). apply eighth. nia.
    - unfold q. rewrite <- (rnd_id (IZR m)) by (apply (fmt_of (fofZ m)), f64_ofZ_is; lia).
      apply round_le; [typeclasses eauto..|]. apply Rmult_le_reg_r with d; [lra|]. unfold Rdiv. rewrite Rmult_assoc, Rinv_l by lra. lra. }
  assert (T : forall m, 1 <= m <= 8 -> ((IZR m * d <= x)%R <-> m <= Ztrunc q)).
  { intros m Hm. rewrite <- (T0 m Hm). pose proof (Ztrunc_lt q m ltac:(lia)) as W. split; intros H.
    - destruct (Z_lt_le_dec (Ztrunc q) m) as [L|L]; [apply W in L; lra|exact L].
    - destruct (Rlt_le_dec q (IZR m)) as [L|L]; [apply W in L; lia|exact L]. }
  unfold in_interval. fold d.
  assert (W : 0 <= k < 7 -> ((x < (IZR k + 1) * d)%R <-> Ztrunc q < k + 1)).
  { intros Hk. rewrite <- (plus_IZR k 1). pose proof (T (k + 1) ltac:(lia)) as TT. split; intros H.
    - destruct (Z_lt_le_dec (Ztrunc q) (k + 1)) as [L|L]; [exact L|apply TT in L; lra].
    - destruct (Rlt_le_dec x (IZR (k + 1) * d)) as [L|L]; [exact L|apply TT in L; lia]. }
  split.
  - intros E. assert (E' : Z.min (Z.max (Ztrunc q) 0) (8 - 1) = k) by (injection E; auto).
    split; [lia|]. split; intros Hk; [apply T; lia|apply W; lia].
  - intros (B' & H1 & H2). f_equal.
    destruct (Z.eq_dec k 0) as [K0|K0]; destruct (Z.eq_dec k 7) as [K7|K7]; try lia.
    + specialize (H2 K7). apply W in H2; lia.
    + specialize (H1 K0). apply T in H1; lia.
    + specialize (H1 K0). specialize (H2 K7). apply T in H1; [|lia]. apply W in H2; lia.
Qed.

Section Cells.
Variables (s2i : f64 -> f64 -> result (f64 * f64)) (nrow ncol : Z) (sky : list (f64 * f64)).
Hypothesis Hr : 0 < nrow <= 2 ^ 50. Hypothesis Hc : 0 < ncol <= 2 ^ 50.
Hypothesis Fin : forall ra dec col row, In (ra, dec) sky -> s2i ra dec = Ok (col, row) ->
  (exists c, f64_is col c /\ (Rabs c <= bpow radix2 900)%R) /\ (exists r, f64_is row r /\ (Rabs r <= bpow radix2 900)%R).

Lemma is_unique (a : f64) u v : f64_is a u -> f64_is a v -> u = v.
Proof. intros (_ & _ & <-) (_ & _ & <-). reflexivity. Qed.

Lemma cell_of_f64 s x y : 0 <= s < Z.of_nat (length sky) ->
  (cell_of (F := f64) s2i nrow ncol sky s (x, y) <-> in_cell_double s2i nrow ncol sky s x y).
Proof.
  intros Hs. destruct (pynth_in sky s Hs) as ([ra dec] & E1 & E2).
  pose proof (nth_error_In _ _ E2) as I.
  unfold cell_of, in_cell_double. split.
  - intros (ra' & dec' & A & B). rewrite E1 in A. injection A as <- <-.
    unfold slice_cell in B. cbn zeta in B. destruct (s2i ra dec) as [[col row]|] eqn:W; [|discriminate].
    destruct (Fin _ _ _ _ I W) as [(c & Hcol & Bc) (r & Hrow & Br)].
    cbn [bind] in B.
    destruct (cell_index col _) as [a|] eqn:X1; [|discriminate]. cbn [bind] in B.
    destruct (cell_index row _) as [b|] eqn:X2; [|discriminate]. cbn [bind] in B. injection B as <- <-.
    exists ra, dec, col, row, c, r. split; [lia|]. split; [exact E2|]. split; [exact W|]. split; [exact Hcol|]. split; [exact Hrow|].
    split; [apply (cell_index_f64 col); assumption|apply (cell_index_f64 row); assumption].
  - intros (ra' & dec' & col & row & c & r & _ & A & W & Hcol & Hrow & X1 & X2). rewrite E2 in A. injection A as <- <-.
    destruct (Fin _ _ _ _ I W) as [(c' & Hcol' & Bc) (r' & Hrow' & Br)].
    rewrite (is_unique _ _ _ Hcol' Hcol) in Bc. rewrite (is_unique _ _ _ Hrow' Hrow) in Br.
    exists ra, dec. split; [exact E1|]. unfold slice_cell. cbn zeta. rewrite W. cbn [bind].
    apply (cell_index_f64 col) in X1; try assumption. apply (cell_index_f64 row) in X2; try assumption.
    rewrite X1, X2. reflexivity.
Qed.

Theorem cells_together_f64 distance argsort slices out :
  (forall s, In s slices -> 0 <= s < Z.of_nat (length sky)) ->
  is_argsort argsort -> is_curve distance ->
  order_slices (F := f64) s2i distance argsort nrow ncol sky slices = Ok out ->
  forall i j k si sj sk x y, (i <= j <= k)%nat ->
  nth_error out i = Some si -> nth_error out j = Some sj -> nth_error out k = Some sk ->
  in_cell_double s2i nrow ncol sky si x y -> in_cell_double s2i nrow ncol sky sk x y -> in_cell_double s2i nrow ncol sky sj x y.
Proof.
  intros Hs HA HC E i j k si sj sk x y Hij Ei Ej Ek Ci Ck.
  assert (B : forall n s, nth_error out n = Some s -> 0 <= s < Z.of_nat (length sky) /\ nth n out 0 = s).
  { intros n s En. split; [|apply nth_error_nth; exact En]. apply Hs.
    apply (Permutation_in _ (Permutation_sym (order_permutes _ _ _ _ _ _ _ _ HA E))). eapply nth_error_In; eassumption. }
  destruct (B _ _ Ei) as [Bi Ni]. destruct (B _ _ Ej) as [Bj Nj]. destruct (B _ _ Ek) as [Bk Nk].
  apply cell_of_f64; [assumption|]. rewrite <- Nj.
  apply cell_of_f64 in Ci; [|assumption]. apply cell_of_f64 in Ck; [|assumption].
  rewrite <- Ni in Ci. rewrite <- Nk in Ck.
  refine (same_cell_together _ _ _ _ _ _ _ _ _ HA HC E i j k Hij _ Ci Ck).
  apply nth_error_Some. congruence.
Qed.
End Cells.
