(** The rough sky bounds in double precision. *)
From Coq Require Import ZArith List Bool Lia Reals Lra SpecFloat.
From Flocq Require Import Core BinarySingleNaN.
From Coq Require Import List.
From Verif Require Import Lib.Base Lib.Floats Model.SkyBounds Spec.FloatSpec Spec.AffineSpec
  Proofs.BaseFacts Proofs.F64Facts Proofs.RoundSum Proofs.CoaddF64 Proofs.LanczosF64 Proofs.FwhmF64 Proofs.AffineF64
  Proofs.SkyBoundsProofs.
Import ListNotations.
Open Scope R_scope.

#[local] Instance Hprec : Prec_gt_0 53 := eq_refl _.
#[local] Instance Hmax : Prec_lt_emax 53 1024 := eq_refl _.
#[local] Instance fexp64_valid : Valid_exp fexp64 := fexp_correct 53 1024 _.
#[local] Instance fexp64_mono : Monotone_exp fexp64 := fexp_monotone 53 1024.

(** ** Least and greatest elements *)
Definition finite_double (x : f64) : Prop := exists v, f64_is x v.

Lemma is_fun x v w : f64_is x v -> f64_is x w -> v = w.
Proof. intros (_ & _ & <-) (_ & _ & <-). reflexivity. Qed.

Lemma fold_min_is l : Forall finite_double l -> forall x, finite_double x ->
  In (fold_left fmin l x) (x :: l) /\
  forall m, f64_is (fold_left fmin l x) m -> forall y v, In y (x :: l) -> f64_is y v -> m <= v.
Proof.
  induction 1 as [|y l [w Hy] Hl IH]; intros x [v Hx]; cbn [fold_left].
  - split; [now left|]. intros m Hm z w [<-|[]] Hz. rewrite (is_fun _ _ _ Hm Hz). lra.
  - pose proof (f64_ltb_is y x w v Hy Hx) as L. unfold fmin at 2 4. change (@fltb f64 F64Ops y x) with (SFltb y x).
    destruct (SFltb y x) eqn:E.
    + destruct (IH y (ex_intro _ w Hy)) as [I1 I2]. split; [right; exact I1|].
      intros m Hm z vz [<-|Hz] Iz.
      * rewrite (is_fun _ _ _ Iz Hx). pose proof (I2 m Hm y w (or_introl eq_refl) Hy).
        assert (w < v) by now apply L. lra.
      * apply (I2 m Hm z vz Hz Iz).
    + assert (NL : v <= w) by (apply Rnot_lt_le; intros K; apply L in K; discriminate).
      destruct (IH x (ex_intro _ v Hx)) as [I1 I2]. split.
      * destruct I1 as [I1|I1]; [now left|right; now right].
      * intros m Hm z vz [<-|[<-|Hz]] Iz.
        -- apply (I2 m Hm _ _ (or_introl eq_refl) Iz).
        -- rewrite (is_fun _ _ _ Iz Hy). pose proof (I2 m Hm _ _ (or_introl eq_refl) Hx). lra.
        -- apply (I2 m Hm z vz); [now right|exact Iz].
Qed.

Lemma fold_max_is l : Forall finite_double l -> forall x, finite_double x ->
  In (fold_left fmax l x) (x :: l) /\
  forall m, f64_is (fold_left fmax l x) m -> forall y v, In y (x :: l) -> f64_is y v -> v <= m.
Proof.
  induction 1 as [|y l [w Hy] Hl IH]; intros x [v Hx]; cbn [fold_left].
  - split; [now left|]. intros m Hm z w [<-|[]] Hz. rewrite (is_fun _ _ _ Hm Hz). lra.
  - pose proof (f64_ltb_is x y v w Hx Hy) as L. unfold fmax at 2 4. change (@fltb f64 F64Ops x y) with (SFltb x y).
    destruct (SFltb x y) eqn:E.
    + destruct (IH y (ex_intro _ w Hy)) as [I1 I2]. split; [right; exact I1|].
      intros m Hm z vz [<-|Hz] Iz.
      * rewrite (is_fun _ _ _ Iz Hx). pose proof (I2 m Hm y w (or_introl eq_refl) Hy).
        assert (v < w) by now apply L. lra.
      * apply (I2 m Hm z vz Hz Iz).
    + assert (NL : w <= v) by (apply Rnot_lt_le; intros K; apply L in K; discriminate).
      destruct (IH x (ex_intro _ v Hx)) as [I1 I2]. split.
      * destruct I1 as [I1|I1]; [now left|right; now right].
      * intros m Hm z vz [<-|[<-|Hz]] Iz.
        -- apply (I2 m Hm _ _ (or_introl eq_refl) Iz).
        -- rewrite (is_fun _ _ _ Iz Hy). pose proof (I2 m Hm _ _ (or_introl eq_refl) Hx). lra.
        -- apply (I2 m Hm z vz); [now right|exact Iz].
Qed.

Lemma lmin_is l : l <> [] -> Forall finite_double l ->
  exists x m, lmin l = Ok x /\ f64_is x m /\ In x l /\ forall y v, In y l -> f64_is y v -> m <= v.
Proof.
  intros Hne Hl. destruct l as [|x l]; [congruence|]. inversion Hl as [|? ? Hx Hl']; subst.
  destruct (fold_min_is l Hl' x Hx) as [I1 I2]. rewrite Forall_forall in Hl. destruct (Hl _ I1) as [m Hm].
  exists (fold_left fmin l x), m. split; [reflexivity|]. split; [exact Hm|]. split; [exact I1|]. now apply I2.
Qed.

Lemma lmax_is l : l <> [] -> Forall finite_double l ->
  exists x m, lmax l = Ok x /\ f64_is x m /\ In x l /\ forall y v, In y l -> f64_is y v -> v <= m.
Proof.
  intros Hne Hl. destruct l as [|x l]; [congruence|]. inversion Hl as [|? ? Hx Hl']; subst.
  destruct (fold_max_is l Hl' x Hx) as [I1 I2]. rewrite Forall_forall in Hl. destruct (Hl _ I1) as [m Hm].
  exists (fold_left fmax l x), m. split; [reflexivity|]. split; [exact Hm|]. split; [exact I1|]. now apply I2.
Qed.

(** ** The grid *)
Lemma Z_of v n : (Z.abs n <= 2 ^ 53)%Z -> v = IZR n -> f64_is (fofZ n) v.
Proof. intros H ->. now apply f64_ofZ_is. Qed.

Lemma fmtZ n : (Z.abs n <= 2 ^ 53)%Z -> generic_format radix2 fexp64 (IZR n).
Proof. intros H. exact (fmt_of _ _ (f64_ofZ_is n H)). Qed.

Lemma IZR_bound n k : (Z.abs n <= 2 ^ k)%Z -> (0 <= k)%Z -> Rabs (IZR n) <= bpow radix2 k.
Proof.
  intros H Hk. rewrite <- abs_IZR, <- (IZR_Zpower radix2) by exact Hk. apply IZR_le. exact H.
Qed.

Lemma ceil_ratio_is a b : (1 <= b)%Z -> (b <= a)%Z -> (a <= 2 ^ 20)%Z ->
  exists k, @ceil_ratio f64 _ a b = Some k /\ (1 <= k <= 2 ^ 20)%Z.
Proof.
  intros Hb Ha Hl. unfold ceil_ratio. 
  assert (Rb : 1 <= IZR b) by (apply (IZR_le 1); lia). assert (Ra : IZR b <= IZR a) by (apply IZR_le; lia).
  assert (Rl : IZR a <= 1048576) by (change 1048576 with (IZR (2 ^ 20)); apply IZR_le; lia).
  assert (Q : 1 <= IZR a / IZR b <= 1048576).
  { split; apply Rmult_le_reg_r with (IZR b); try lra; unfold Rdiv; rewrite Rmult_assoc, Rinv_l by lra; nra. }
  assert (H1 : f64_is (fdiv (fofZ a : f64) (fofZ b)) (rnd (IZR a / IZR b))).
  { apply div_is; [apply f64_ofZ_is; lia|apply f64_ofZ_is; lia|lra|]. rewrite Rabs_pos_eq by lra.
    pose proof big_80. lra. }
  set (q := rnd (IZR a / IZR b)) in *.
  assert (Bq : 1 <= q <= 1048576).
  { unfold q. split.
    - rewrite <- (rnd_id 1) by (apply (fmtZ 1); lia). apply round_le; [typeclasses eauto..|]. lra.
    - rewrite <- (rnd_id 1048576) by (apply (fmtZ 1048576); lia). apply round_le; [typeclasses eauto..|]. lra. }
  assert (H2 : f64_is (fneg (fdiv (fofZ a : f64) (fofZ b))) (- q)).
  { replace (- q) with (rnd (0 - q)).
    - apply sub_is; [apply (f64_ofZ_is 0); lia|exact H1|]. rewrite Rminus_0_l, Rabs_Ropp, Rabs_pos_eq by lra.
      pose proof big_80. lra.
    - rewrite Rminus_0_l. apply rnd_id, generic_format_opp, (fmt_of _ _ H1). }
  change (@ffloor f64 F64Ops) with f64_floor. rewrite (f64_floor_is _ _ H2).
  exists (- Zfloor (- q))%Z. split; [reflexivity|].
  assert (F1 : (Zfloor (- q) <= -1)%Z).
  { apply Z.lt_succ_r. change (Z.succ (-1)) with 0%Z. apply lt_IZR. eapply Rle_lt_trans; [apply Zfloor_lb|]. lra. }
  assert (F2 : (-1048576 <= Zfloor (- q))%Z) by (apply Zfloor_lub; lra). lia.
Qed.

Lemma grid_size_is nrow ncol n : (1 <= nrow <= 2 ^ 20)%Z -> (1 <= ncol <= 2 ^ 20)%Z -> (1 <= n <= 2 ^ 20)%Z ->
  exists nr nc, @grid_size f64 _ nrow ncol n = Some (nr, nc) /\ (1 <= nr <= 2 ^ 20)%Z /\ (1 <= nc <= 2 ^ 20)%Z.
Proof.
  intros H1 H2 H3. unfold grid_size. destruct (Z.ltb_spec ncol nrow).
  - destruct (ceil_ratio_is nrow ncol) as (k & -> & Hk); try lia. eauto.
  - destruct (ceil_ratio_is ncol nrow) as (k & -> & Hk); try lia. eauto.
Qed.

Lemma dim_is dim : (1 <= dim <= 2 ^ 20)%Z -> f64_is (fsub (fofZ dim : f64) fone) (IZR (dim - 1)).
Proof.
  intros H. rewrite minus_IZR. replace (IZR dim - 1) with (rnd (IZR dim - 1)).
  - apply sub_is; [apply f64_ofZ_is; lia|exact one_is|]. rewrite <- minus_IZR.
    eapply Rle_trans; [apply (IZR_bound _ 20); lia|apply bpow_le; lia].
  - rewrite <- minus_IZR. apply rnd_id, fmtZ. lia.
Qed.

Lemma axis_point n dim k : (1 <= n <= 2 ^ 20)%Z -> (1 <= dim <= 2 ^ 20)%Z -> (0 <= k <= n)%Z ->
  f64_is (fdiv (fmul (fofZ k) (fsub (fofZ dim) fone)) (fofZ n) : f64) (rnd (IZR (k * (dim - 1)) / IZR n)) /\
  0 <= rnd (IZR (k * (dim - 1)) / IZR n) <= IZR (dim - 1).
Proof.
  intros Hn Hd Hk.
  assert (Rn : 1 <= IZR n) by (apply (IZR_le 1); lia).
  assert (Q : 0 <= IZR (k * (dim - 1)) / IZR n <= IZR (dim - 1)).
  { assert (0 <= IZR (k * (dim - 1)) <= IZR (n * (dim - 1))) by (split; apply IZR_le; nia).
    rewrite (mult_IZR n) in H. split.
    - unfold Rdiv. apply Rmult_le_pos; [lra|]. apply Rlt_le, Rinv_0_lt_compat. lra.
    - apply Rmult_le_reg_r with (IZR n); [lra|]. unfold Rdiv. rewrite Rmult_assoc, Rinv_l by lra. lra. }
  assert (BD : IZR (dim - 1) <= 1048576) by (change 1048576 with (IZR (2 ^ 20)); apply IZR_le; lia).
  assert (P1 : (Z.abs (k * (dim - 1)) <= 2 ^ 40)%Z).
  { rewrite Z.abs_eq by nia. change (2 ^ 40)%Z with (2 ^ 20 * 2 ^ 20)%Z. apply Z.mul_le_mono_nonneg; lia. }
  split; [|split].
  - apply div_is; [|apply f64_ofZ_is; lia|lra|rewrite Rabs_pos_eq by lra; pose proof big_80; lra].
    rewrite <- (rnd_id (IZR (k * (dim - 1)))) by (apply fmtZ; lia). rewrite mult_IZR at 1.
    apply mul_is; [apply f64_ofZ_is; lia|now apply dim_is|]. rewrite <- mult_IZR.
    eapply Rle_trans; [apply (IZR_bound _ 40); [exact P1|lia]|apply bpow_le; lia].
  - rewrite <- rnd_0. apply round_le; [typeclasses eauto..|]. lra.
  - rewrite <- (rnd_id (IZR (dim - 1))) by (apply fmtZ; lia). apply round_le; [typeclasses eauto..|]. lra.
Qed.

Lemma axis_in n dim r : (1 <= n <= 2 ^ 20)%Z -> (1 <= dim <= 2 ^ 20)%Z ->
  In r (@grid_axis f64 _ n dim) -> exists v, f64_is r v /\ 0 <= v <= IZR (dim - 1).
Proof.
  intros Hn Hd H. unfold grid_axis in H. apply in_map_iff in H as (k & <- & Hk). apply In_zrange in Hk.
  destruct (axis_point n dim k Hn Hd ltac:(lia)) as [A B]. eexists. split; [exact A|exact B].
Qed.

Lemma axis_ends n dim : (1 <= n <= 2 ^ 20)%Z -> (1 <= dim <= 2 ^ 20)%Z ->
  (exists r, In r (@grid_axis f64 _ n dim) /\ f64_is r 0) /\
  (exists r, In r (@grid_axis f64 _ n dim) /\ f64_is r (IZR (dim - 1))).
Proof.
  intros Hn Hd. unfold grid_axis. assert (Rn : 1 <= IZR n) by (apply (IZR_le 1); lia). split; eexists; split.
  - apply in_map_iff. exists 0%Z. split; [reflexivity|]. apply In_zrange. lia.
  - destruct (axis_point n dim 0 Hn Hd ltac:(lia)) as [A _]. rewrite Z.mul_0_l in A.
    replace (0 / IZR n) with 0 in A by (unfold Rdiv; ring). rewrite rnd_0 in A. exact A.
  - apply in_map_iff. exists n. split; [reflexivity|]. apply In_zrange. lia.
  - destruct (axis_point n dim n Hn Hd ltac:(lia)) as [A _]. rewrite mult_IZR in A.
    replace (IZR n * IZR (dim - 1) / IZR n) with (IZR (dim - 1)) in A by (field; lra).
    rewrite rnd_id in A by (apply fmtZ; lia). exact A.
Qed.

Lemma points_in (rows cols : list f64) r c : In (r, c) (grid_points rows cols) <-> In r rows /\ In c cols.
Proof.
  unfold grid_points. rewrite in_flat_map. split.
  - intros (c' & Hc & H). apply in_map_iff in H. destruct H as (r' & E & Hr).
    inversion E; subst. tauto.
  - intros [Hr Hc]. exists c. split; [assumption|]. apply in_map_iff. eauto.
Qed.

(** ** The bounds of a WCS that is nearly affine *)
Section Bounds.
Variable wcs : f64 -> f64 -> f64 * f64.
Variables (a b k a' b' k' M P eps S : R).
Hypothesis Ba : Rabs a <= M. Hypothesis Bb : Rabs b <= M. Hypothesis Ba' : Rabs a' <= M. Hypothesis Bb' : Rabs b' <= M.
Hypothesis RS : 0 <= S <= 1152921504606846976.
Hypothesis RP : 1 <= P <= 1073741824.
Hypothesis Hw : forall X Y x y, f64_is X x -> f64_is Y y -> Rabs x <= P -> Rabs y <= P ->
  exists u v, f64_is (fst (wcs X Y)) u /\ f64_is (snd (wcs X Y)) v /\
    Rabs (u - (a * x + b * y + k)) <= eps /\ Rabs (v - (a' * x + b' * y + k')) <= eps /\ Rabs u <= S /\ Rabs v <= S.
Variables (off buff : f64) (voff vbuff : R).
Hypothesis Hoff : f64_is off voff. Hypothesis Hbuff : f64_is buff vbuff.
Hypothesis Bbuff : 0 <= vbuff <= 1152921504606846976.

Lemma shift_is X x : f64_is X x -> Rabs x + Rabs voff <= P / 2 ->
  exists s, f64_is (fadd X off) s /\ Rabs (s - (x + voff)) <= uro * P /\ Rabs s <= P.
Proof.
  intros HX B. pose proof uro_fine as U. pose proof uro_pos as U0. pose proof big_80 as K.
  destruct (add_step X off x x (Rabs x) 0 voff voff (Rabs voff) 0 HX (exact_step _) (Rle_refl _) Hoff (exact_step _) (Rle_refl _) ltac:(lra))
    as (s & Hs & E). exists s. split; [exact Hs|].
  assert (E2 : Rabs (s - (x + voff)) <= uro * P).
  { eapply Rle_trans; [exact E|].
    assert (uro * (Rabs x + 0 + (Rabs voff + 0) + uro) <= uro * P) by (apply Rmult_le_compat_l; lra). lra. }
  split; [exact E2|]. assert (uro * P <= / 1000 * P) by (apply Rmult_le_compat_r; lra).
  pose proof (Rabs_triang x voff).
  replace s with ((x + voff) + (s - (x + voff))) by ring. eapply Rle_trans; [apply Rabs_triang|]. lra.
Qed.

Lemma position_is X Y x y : f64_is X x -> f64_is Y y -> Rabs x + Rabs voff <= P / 2 -> Rabs y + Rabs voff <= P / 2 ->
  exists u v, f64_is (fst (wcs (fadd X off) (fadd Y off))) u /\ f64_is (snd (wcs (fadd X off) (fadd Y off))) v /\
    Rabs (u - (a * (x + voff) + b * (y + voff) + k)) <= eps + 2 * M * (uro * P) /\
    Rabs (v - (a' * (x + voff) + b' * (y + voff) + k')) <= eps + 2 * M * (uro * P) /\ Rabs u <= S /\ Rabs v <= S.
Proof.
  intros HX HY Bx By. destruct (shift_is X x HX Bx) as (s & Hs & Es & Ss). destruct (shift_is Y y HY By) as (t & Ht & Et & St).
  destruct (Hw _ _ _ _ Hs Ht Ss St) as (u & v & Hu & Hv & Eu & Ev & Su & Sv).
  exists u, v. split; [exact Hu|]. split; [exact Hv|].
  assert (T : forall c d, Rabs c <= M -> Rabs d <= M ->
    Rabs (c * (s - (x + voff)) + d * (t - (y + voff))) <= 2 * M * (uro * P)).
  { intros c d Bc Bd. eapply Rle_trans; [apply Rabs_triang|]. rewrite !Rabs_mult.
    assert (Rabs c * Rabs (s - (x + voff)) <= M * (uro * P)) by (apply Rmult_le_compat; try apply Rabs_pos; assumption).
    assert (Rabs d * Rabs (t - (y + voff)) <= M * (uro * P)) by (apply Rmult_le_compat; try apply Rabs_pos; assumption). lra. }
  split; [|split; [|split; assumption]].
  - replace (u - (a * (x + voff) + b * (y + voff) + k)) with
      ((u - (a * s + b * t + k)) + (a * (s - (x + voff)) + b * (t - (y + voff)))) by ring.
    eapply Rle_trans; [apply Rabs_triang|]. apply Rplus_le_compat; [exact Eu|now apply T].
  - replace (v - (a' * (x + voff) + b' * (y + voff) + k')) with
      ((v - (a' * s + b' * t + k')) + (a' * (s - (x + voff)) + b' * (t - (y + voff)))) by ring.
    eapply Rle_trans; [apply Rabs_triang|]. apply Rplus_le_compat; [exact Ev|now apply T].
Qed.

Variables (nrow ncol n : Z).
Hypothesis Hr : (1 <= nrow <= 2 ^ 20)%Z. Hypothesis Hc : (1 <= ncol <= 2 ^ 20)%Z. Hypothesis Hn : (1 <= n <= 2 ^ 20)%Z.
Variable m : R.
Hypothesis Hm : 0 <= m.
Hypothesis BPc : IZR ncol + m + Rabs voff <= P / 2. Hypothesis BPr : IZR nrow + m + Rabs voff <= P / 2.
Variables (r2uv : f64 -> f64 -> f64 -> f64 -> f64 * f64) (cosdeg : f64 -> f64).

(** Away from the corners by at most [m] pixels. *)
Lemma away c d x y : - m <= x <= IZR ncol - 1 + m -> - m <= y <= IZR nrow - 1 + m ->
  (exists x0 y0, (x0 = 0 \/ x0 = IZR (ncol - 1)) /\ (y0 = 0 \/ y0 = IZR (nrow - 1)) /\
     c * x0 + d * y0 <= c * x + d * y + m * (Rabs c + Rabs d)) /\
  (exists x0 y0, (x0 = 0 \/ x0 = IZR (ncol - 1)) /\ (y0 = 0 \/ y0 = IZR (nrow - 1)) /\
     c * x + d * y <= c * x0 + d * y0 + m * (Rabs c + Rabs d)).
Proof.
  intros Hx Hy. rewrite <- minus_IZR in Hx, Hy.
  assert (L : forall g z h, - m <= z <= h + m ->
    (exists z0, (z0 = 0 \/ z0 = h) /\ g * z0 <= g * z + m * Rabs g) /\
    (exists z0, (z0 = 0 \/ z0 = h) /\ g * z <= g * z0 + m * Rabs g)).
  { intros g z h Hz. destruct (Rle_or_lt 0 g) as [G|G].
    - rewrite Rabs_pos_eq by lra. split; [exists 0|exists h]; split; try (now left); try (now right); nra.
    - rewrite Rabs_left by lra. split; [exists h|exists 0]; split; try (now left); try (now right); nra. }
  destruct (L c x _ Hx) as [(x0 & A1 & A2) (x1 & A3 & A4)]. destruct (L d y _ Hy) as [(y0 & B1 & B2) (y1 & B3 & B4)].
  split; [exists x0, y0|exists x1, y1]; (split; [assumption|split; [assumption|lra]]).
Qed.

Theorem bounds_contain_near :
  m * (Rabs a + Rabs b) + 2 * (eps + 2 * M * (uro * P)) + uro * (2 * S + uro) <= vbuff ->
  m * (Rabs a' + Rabs b') + 2 * (eps + 2 * M * (uro * P)) + uro * (2 * S + uro) <= vbuff ->
  exists bb ra dec, get_rough_sky_bounds wcs r2uv cosdeg nrow ncol off buff n false = Ok (bb, ra, dec) /\
  forall x y r de pu pv, - m <= x <= IZR ncol - 1 + m -> - m <= y <= IZR nrow - 1 + m ->
  f64_is r pu -> f64_is de pv ->
  Rabs (pu - (a * (x + voff) + b * (y + voff) + k)) <= eps + 2 * M * (uro * P) ->
  Rabs (pv - (a' * (x + voff) + b' * (y + voff) + k')) <= eps + 2 * M * (uro * P) ->
  Rabs pu <= S -> Rabs pv <= S ->
  ccd_contains_radec r2uv bb ra dec false r de = true.
Proof.
  intros Q1 Q2.
  destruct (grid_size_is nrow ncol n Hr Hc Hn) as (nr & nc & Eg & Hnr & Hnc).
  unfold get_rough_sky_bounds. rewrite Eg. cbv zeta.
  set (pts := grid_points (grid_axis nr nrow) (grid_axis nc ncol)).
  pose proof big_80 as K80. pose proof uro_pos as U0. pose proof uro_fine as U1.
  assert (RC : 1 <= IZR ncol <= 1048576).
  { split; [apply (IZR_le 1); lia|]. change 1048576 with (IZR (2 ^ 20)). apply IZR_le. lia. }
  assert (RR : 1 <= IZR nrow <= 1048576).
  { split; [apply (IZR_le 1); lia|]. change 1048576 with (IZR (2 ^ 20)). apply IZR_le. lia. }
  assert (CTR : forall dim, (1 <= dim <= 2 ^ 20)%Z -> IZR dim + m + Rabs voff <= P / 2 ->
    exists v, f64_is (fdiv (fofZ (dim - 1) : f64) (fofZ 2)) v /\ Rabs v + Rabs voff <= P / 2).
  { intros dim Hd Bd. exists (rnd (IZR (dim - 1) / 2)).
    assert (0 <= IZR (dim - 1) <= IZR dim) by (split; [apply (IZR_le 0); lia|apply IZR_le; lia]).
    assert (IZR dim <= 1048576) by (change 1048576 with (IZR (2 ^ 20)); apply IZR_le; lia).
    split.
    - apply div_is; [apply f64_ofZ_is; lia|apply (f64_ofZ_is 2); lia|lra|]. rewrite Rabs_pos_eq; lra.
    - rewrite rnd_id by (apply half_format; lia). rewrite Rabs_pos_eq by lra. lra. }
  destruct (CTR ncol Hc BPc) as (cc & Hcc & Bcc). destruct (CTR nrow Hr BPr) as (rr & Hrr & Brr).
  destruct (position_is _ _ _ _ Hcc Hrr Bcc Brr) as (ra0 & dec0 & Hra & Hdec & _ & _ & Sra & Sdec).
  destruct (wcs (fadd (fdiv (fofZ (ncol - 1)) (fofZ 2)) off) (fadd (fdiv (fofZ (nrow - 1)) (fofZ 2)) off)) as [ra dec].
  cbn [fst snd] in Hra, Hdec.
  set (uv := map _ (map _ pts)). 
  assert (PT : forall rc, In rc pts -> exists u v, 
    f64_is (fst (wcs (fadd (snd rc) off) (fadd (fst rc) off))) u /\
    f64_is (snd (wcs (fadd (snd rc) off) (fadd (fst rc) off))) v /\ Rabs u <= S /\ Rabs v <= S).
  { intros [r c] H. apply points_in in H as [I1 I2]. apply axis_in in I1 as (vr & J1 & J2); [|lia..].
    apply axis_in in I2 as (vc & J3 & J4); [|lia..]. rewrite minus_IZR in J2, J4. cbn [fst snd].
    destruct (position_is c r vc vr J3 J1) as (u & v & A1 & A2 & _ & _ & A5 & A6).
    - rewrite Rabs_pos_eq by lra. lra.
    - rewrite Rabs_pos_eq by lra. lra.
    - exists u, v. tauto. }
  assert (SUB : forall (x z : f64) vx vz, f64_is x vx -> f64_is z vz -> Rabs vx <= S -> Rabs vz <= S ->
    f64_is (fsub x z) (rnd (vx - vz)) /\ Rabs (rnd (vx - vz) - (vx - vz)) <= uro * (2 * S + uro) /\
    Rabs (vx - vz) <= 2 * S).
  { intros x z vx vz Hx Hz Bx Bz.
    assert (B : Rabs (vx - vz) <= 2 * S) by (unfold Rminus; eapply Rle_trans; [apply Rabs_triang|]; rewrite Rabs_Ropp; lra).
    split; [apply sub_is; try assumption; lra|]. split; [now apply rnd_step|exact B]. }
  assert (FU : Forall finite_double (map fst uv)).
  { apply Forall_forall. intros z Hz. unfold uv in Hz. rewrite !map_map in Hz. apply in_map_iff in Hz as (rc & <- & Hrc).
    destruct (PT rc Hrc) as (u & v & A1 & A2 & A3 & A4). cbn [fst snd]. exists (rnd (u - ra0)).
    now apply (SUB _ _ _ _ A1 Hra). }
  assert (FV : Forall finite_double (map snd uv)).
  { apply Forall_forall. intros z Hz. unfold uv in Hz. rewrite !map_map in Hz. apply in_map_iff in Hz as (rc & <- & Hrc).
    destruct (PT rc Hrc) as (u & v & A1 & A2 & A3 & A4). cbn [fst snd]. exists (rnd (v - dec0)).
    now apply (SUB _ _ _ _ A2 Hdec). }
  assert (CO : forall x0 y0, (x0 = 0 \/ x0 = IZR (ncol - 1)) -> (y0 = 0 \/ y0 = IZR (nrow - 1)) ->
    exists U V u v, In U (map fst uv) /\ In V (map snd uv) /\
      f64_is U (rnd (u - ra0)) /\ f64_is V (rnd (v - dec0)) /\ Rabs u <= S /\ Rabs v <= S /\
      Rabs (u - (a * (x0 + voff) + b * (y0 + voff) + k)) <= eps + 2 * M * (uro * P) /\
      Rabs (v - (a' * (x0 + voff) + b' * (y0 + voff) + k')) <= eps + 2 * M * (uro * P)).
  { intros x0 y0 Hx0 Hy0.
    assert (IC : exists c, In c (@grid_axis f64 _ nc ncol) /\ f64_is c x0).
    { destruct (axis_ends nc ncol Hnc Hc) as [E1 E2]. destruct Hx0 as [-> | ->]; assumption. }
    assert (IR : exists r, In r (@grid_axis f64 _ nr nrow) /\ f64_is r y0).
    { destruct (axis_ends nr nrow Hnr Hr) as [E1 E2]. destruct Hy0 as [-> | ->]; assumption. }
    destruct IC as (c & I1 & I2). destruct IR as (r & I3 & I4).
    assert (Bx0 : Rabs x0 + Rabs voff <= P / 2).
    { destruct Hx0 as [-> | ->]; [rewrite Rabs_R0|rewrite minus_IZR, Rabs_pos_eq by lra]; lra. }
    assert (By0 : Rabs y0 + Rabs voff <= P / 2).
    { destruct Hy0 as [-> | ->]; [rewrite Rabs_R0|rewrite minus_IZR, Rabs_pos_eq by lra]; lra. }
    destruct (position_is c r x0 y0 I2 I4 Bx0 By0) as (u & v & A1 & A2 & A3 & A4 & A5 & A6).
    assert (IP : In (r, c) pts) by (apply points_in; tauto).
    exists (fsub (fst (wcs (fadd c off) (fadd r off))) ra), (fsub (snd (wcs (fadd c off) (fadd r off))) dec), u, v.
    split. { unfold uv. rewrite !map_map. apply in_map_iff. exists (r, c). split; [reflexivity|exact IP]. }
    split. { unfold uv. rewrite !map_map. apply in_map_iff. exists (r, c). split; [reflexivity|exact IP]. }
    split; [now apply (SUB _ _ _ _ A1 Hra)|]. split; [now apply (SUB _ _ _ _ A2 Hdec)|]. tauto. }
  assert (NU : map fst uv <> []).
  { destruct (CO 0 0 (or_introl eq_refl) (or_introl eq_refl)) as (U & V & u & v & I & _). intros E. rewrite E in I. destruct I. }
  assert (NV : map snd uv <> []).
  { destruct (CO 0 0 (or_introl eq_refl) (or_introl eq_refl)) as (U & V & u & v & _ & I & _). intros E. rewrite E in I. destruct I. }
  assert (SZ : forall z v, (In z (map fst uv) \/ In z (map snd uv)) -> f64_is z v -> Rabs v <= 2 * S + uro * (2 * S + uro)).
  { intros z v Hz Iz. 
    assert (W : exists w w0, f64_is z (rnd (w - w0)) /\ Rabs (rnd (w - w0) - (w - w0)) <= uro * (2 * S + uro) /\ Rabs (w - w0) <= 2 * S).
    { unfold uv in Hz. rewrite !map_map in Hz. destruct Hz as [Hz|Hz]; apply in_map_iff in Hz as (rc & <- & Hrc);
        destruct (PT rc Hrc) as (u & w & A1 & A2 & A3 & A4); cbn [fst snd].
      - exists u, ra0. now apply SUB.
      - exists w, dec0. now apply SUB. }
    destruct W as (w & w0 & W1 & W2 & W3). rewrite (is_fun _ _ _ Iz W1).
    apply (near_size (w - w0)); assumption. }
  destruct (lmin_is _ NU FU) as (u0 & vu0 & Eu0 & Iu0 & Ju0 & Lu0). destruct (lmax_is _ NU FU) as (u1 & vu1 & Eu1 & Iu1 & Ju1 & Lu1).
  destruct (lmin_is _ NV FV) as (v0 & vv0 & Ev0 & Iv0 & Jv0 & Lv0). destruct (lmax_is _ NV FV) as (v1 & vv1 & Ev1 & Iv1 & Jv1 & Lv1).
  cbn [bind]. rewrite Eu0. cbn [bind]. rewrite Eu1. cbn [bind]. rewrite Ev0. cbn [bind]. rewrite Ev1. cbn [bind].
  eexists. exists ra, dec. split; [reflexivity|].
  intros x y r de pu pv Bx By A1 A2 A3 A4 A5 A6.
  destruct (SUB _ _ _ _ A1 Hra A5 Sra) as (T1 & _ & _). destruct (SUB _ _ _ _ A2 Hdec A6 Sdec) as (T2 & _ & _).
  assert (uS : uro * (2 * S + uro) <= 2 * S + 1).
  { assert (uro * (2 * S + uro) <= 1 * (2 * S + uro)) by (apply Rmult_le_compat_r; lra). lra. }
  unfold ccd_contains_radec, contains_point. cbn [umin umax vmin vmax].
  assert (LOW : forall (lo z : f64) vlo c0 p0 w0, f64_is lo vlo -> vlo <= rnd (c0 - w0) -> Rabs vlo <= 2 * S + uro * (2 * S + uro) ->
    Rabs c0 <= S -> Rabs w0 <= S -> f64_is z (rnd (p0 - w0)) -> c0 - p0 + uro * (2 * S + uro) <= vbuff ->
    fleb (fsub lo buff) z = true).
  { intros lo z vlo c0 p0 w0 H1 H2 H3 H4 H5 H6 H7.
    assert (E : f64_is (fsub lo buff) (rnd (vlo - vbuff))).
    { apply sub_is; [exact H1|exact Hbuff|]. unfold Rminus. eapply Rle_trans; [apply Rabs_triang|].
      rewrite Rabs_Ropp, (Rabs_pos_eq vbuff) by lra. lra. }
    apply (f64_leb_is _ _ _ _ E H6). apply round_le; [typeclasses eauto..|].
    assert (B : Rabs (c0 - w0) <= 2 * S) by (unfold Rminus; eapply Rle_trans; [apply Rabs_triang|]; rewrite Rabs_Ropp; lra).
    pose proof (rnd_step _ _ B) as G. apply Rabs_le_inv in G. lra. }
  assert (HIGH : forall (hi z : f64) vhi c0 p0 w0, f64_is hi vhi -> rnd (c0 - w0) <= vhi -> Rabs vhi <= 2 * S + uro * (2 * S + uro) ->
    Rabs c0 <= S -> Rabs w0 <= S -> f64_is z (rnd (p0 - w0)) -> p0 - c0 + uro * (2 * S + uro) <= vbuff ->
    fleb z (fadd hi buff) = true).
  { intros hi z vhi c0 p0 w0 H1 H2 H3 H4 H5 H6 H7.
    assert (E : f64_is (fadd hi buff) (rnd (vhi + vbuff))).
    { apply add_is; [exact H1|exact Hbuff|]. eapply Rle_trans; [apply Rabs_triang|].
      rewrite (Rabs_pos_eq vbuff) by lra. lra. }
    apply (f64_leb_is _ _ _ _ H6 E). apply round_le; [typeclasses eauto..|].
    assert (B : Rabs (c0 - w0) <= 2 * S) by (unfold Rminus; eapply Rle_trans; [apply Rabs_triang|]; rewrite Rabs_Ropp; lra).
    pose proof (rnd_step _ _ B) as G. apply Rabs_le_inv in G. lra. }
  destruct (away a b x y Bx By) as [(x0 & y0 & X0 & Y0 & G0) (x1 & y1 & X1 & Y1 & G1)].
  destruct (away a' b' x y Bx By) as [(x2 & y2 & X2 & Y2 & G2) (x3 & y3 & X3 & Y3 & G3)].
  apply Rabs_le_inv in A3. apply Rabs_le_inv in A4.
  destruct (CO x0 y0 X0 Y0) as (U & V & cu & cv & C1 & _ & C3 & _ & C5 & _ & C7 & _). apply Rabs_le_inv in C7.
  rewrite (LOW u0 (fsub r ra) vu0 cu pu ra0 Iu0 (Lu0 _ _ C1 C3) (SZ _ _ (or_introl Ju0) Iu0) C5 Sra T1) by lra.
  clear U V cu cv C1 C3 C5 C7.
  destruct (CO x1 y1 X1 Y1) as (U & V & cu & cv & C1 & _ & C3 & _ & C5 & _ & C7 & _). apply Rabs_le_inv in C7.
  rewrite (HIGH u1 (fsub r ra) vu1 cu pu ra0 Iu1 (Lu1 _ _ C1 C3) (SZ _ _ (or_introl Ju1) Iu1) C5 Sra T1) by lra.
  clear U V cu cv C1 C3 C5 C7.
  destruct (CO x2 y2 X2 Y2) as (U & V & cu & cv & _ & C1 & _ & C3 & _ & C5 & _ & C7). apply Rabs_le_inv in C7.
  rewrite (LOW v0 (fsub de dec) vv0 cv pv dec0 Iv0 (Lv0 _ _ C1 C3) (SZ _ _ (or_intror Jv0) Iv0) C5 Sdec T2) by lra.
  clear U V cu cv C1 C3 C5 C7.
  destruct (CO x3 y3 X3 Y3) as (U & V & cu & cv & _ & C1 & _ & C3 & _ & C5 & _ & C7). apply Rabs_le_inv in C7.
  rewrite (HIGH v1 (fsub de dec) vv1 cv pv dec0 Iv1 (Lv1 _ _ C1 C3) (SZ _ _ (or_intror Jv1) Iv1) C5 Sdec T2) by lra.
  reflexivity.
Qed.

Theorem bounds_contain :
  m * (Rabs a + Rabs b) + 2 * (eps + 2 * M * (uro * P)) + uro * (2 * S + uro) <= vbuff ->
  m * (Rabs a' + Rabs b') + 2 * (eps + 2 * M * (uro * P)) + uro * (2 * S + uro) <= vbuff ->
  exists bb ra dec, get_rough_sky_bounds wcs r2uv cosdeg nrow ncol off buff n false = Ok (bb, ra, dec) /\
  forall X Y x y, f64_is X x -> f64_is Y y -> - m <= x <= IZR ncol - 1 + m -> - m <= y <= IZR nrow - 1 + m ->
  let '(r, de) := wcs (fadd X off) (fadd Y off) in
  ccd_contains_radec r2uv bb ra dec false r de = true.
Proof.
  intros Q1 Q2. destruct (bounds_contain_near Q1 Q2) as (bb & ra & dec & E & K). exists bb, ra, dec. split; [exact E|].
  assert (RC : 1 <= IZR ncol) by (apply (IZR_le 1); lia). assert (RR : 1 <= IZR nrow) by (apply (IZR_le 1); lia).
  intros X Y x y HX HY Bx By.
  assert (Ax : Rabs x + Rabs voff <= P / 2).
  { assert (Rabs x <= IZR ncol + m); [apply Rabs_le; lra|lra]. }
  assert (Ay : Rabs y + Rabs voff <= P / 2).
  { assert (Rabs y <= IZR nrow + m); [apply Rabs_le; lra|lra]. }
  destruct (position_is X Y x y HX HY Ax Ay) as (pu & pv & A1 & A2 & A3 & A4 & A5 & A6).
  destruct (wcs (fadd X off) (fadd Y off)) as [r de]. cbn [fst snd] in A1, A2.
  apply (K x y r de pu pv); assumption.
Qed.
End Bounds.
