(** The noise image of a single epoch image with single precision weights. *)
From Coq Require Import ZArith List Bool Lia Reals Lra SpecFloat.
From Flocq Require Import Core BinarySingleNaN.
From Coq Require Import List.
From Verif Require Import Lib.Base Lib.Floats Lib.Float32 Model.Noise Model.NoiseF4 Spec.NoiseSpec
  Spec.FloatSpec Spec.Float32Spec Proofs.BaseFacts Proofs.F64Facts Proofs.RoundSum Proofs.CoaddF64
  Proofs.Float32Facts Proofs.NoiseProofs Proofs.NoiseF64.
Import ListNotations.
Open Scope R_scope.

Definition u := / 16777216.
Lemma u_is : bpow radix2 (-24) = u. Proof. reflexivity. Qed.

Lemma uro_u : uro <= u / 1024.
Proof. unfold uro. replace (u / 1024) with (bpow radix2 (-34)) by (cbn; unfold u; lra). apply bpow_le. lia. Qed.

Lemma to_single_id x v : f64_is x v -> single v -> f64_is (to_single x) v.
Proof.
  intros H S. rewrite <- (rnd32_id v S). apply to_single_is; [exact H|]. rewrite (rnd32_id v S). now apply single_format.
Qed.

(** One operation, rounded to double and then to single precision. *)
Lemma op_rel (z : f64) x : f64_is z (rnd x) -> bpow radix2 (-100) <= Rabs x <= bpow radix2 100 ->
  exists e, Rabs e <= 9 / 8 * u /\ f64_is (to_single z) (x * (1 + e)) /\ single (x * (1 + e)).
Proof.
  intros Hz [Bl Bu].
  assert (B1 : Rabs x <= bpow radix2 120) by (eapply Rle_trans; [exact Bu|apply bp_le; lia]).
  pose proof (double_small _ B1) as B2. pose proof (single_small _ B2) as B3.
  assert (B4 : Rabs (rnd32 (rnd x)) < bpow radix2 128) by (eapply Rle_lt_trans; [exact B3|apply bpow_lt; lia]).
  destruct (rnd_error_gen x) as (e1 & h1 & He1 & Hh1 & E1).
  destruct (rnd32_error (rnd x)) as (e2 & h2 & He2 & Hh2 & E2). rewrite u_is in He2.
  pose proof err_le_uro. pose proof uro_u. pose proof (bpow_gt_0 radix2 (-100)) as P.
  assert (Nx : x <> 0) by (intros ->; rewrite Rabs_R0 in Bl; lra).
  assert (Small : forall h, Rabs h <= bpow radix2 (-150) -> Rabs (h / x) <= u / 1024).
  { intros h Hh. unfold Rdiv. rewrite Rabs_mult, Rabs_inv.
    apply Rle_trans with (bpow radix2 (-150) * / bpow radix2 (-100)).
    - apply Rmult_le_compat; [apply Rabs_pos|apply Rlt_le, Rinv_0_lt_compat; lra|exact Hh|apply Rinv_le; lra].
    - rewrite <- bpow_opp, <- bpow_plus. replace (u * / 1024) with (bpow radix2 (-34)) by (cbn; unfold u; lra). apply bp_le. lia. }
  pose proof (Small h2 Hh2) as S2.
  assert (S1 : Rabs (h1 / x) <= u / 1024).
  { apply Small. eapply Rle_trans; [exact Hh1|apply bp_le; lia]. }
  exists ((1 + e1 + h1 / x) * (1 + e2) + h2 / x - 1).
  assert (EE : x * (1 + ((1 + e1 + h1 / x) * (1 + e2) + h2 / x - 1)) = rnd32 (rnd x)).
  { rewrite E2, E1. field. exact Nx. }
  rewrite EE. split; [|split; [now apply to_single_is|now apply rnd32_single]].
  assert (A1 : Rabs e1 <= u / 1024) by lra.
  apply Rabs_le_inv in A1, S1, S2, He2. apply Rabs_le. unfold u in *. nra.
Qed.

Lemma sqrt_rel P p : 0 <= p <= / 2 -> Rabs (P - 1) <= p -> Rabs (sqrt P - 1) <= p.
Proof.
  intros Hp H. apply Rabs_le_inv in H. assert (Q : sqrt P * sqrt P = P) by (apply sqrt_sqrt; lra).
  pose proof (sqrt_pos P). apply Rabs_le. nra.
Qed.

Lemma range_rel x e a b : Rabs e <= 9 / 8 * u -> bpow radix2 a <= x <= bpow radix2 b ->
  bpow radix2 (a - 1) <= x * (1 + e) <= bpow radix2 (b + 1).
Proof.
  intros He [A B]. unfold Zminus. rewrite !bpow_plus. change (bpow radix2 (-(1))) with (/ 2). change (bpow radix2 1) with 2.
  pose proof (bpow_gt_0 radix2 a). apply Rabs_le_inv in He. unfold u in He. split; nra.
Qed.

Lemma inv_range x a b : bpow radix2 a <= x <= bpow radix2 b -> bpow radix2 (- b) <= / x <= bpow radix2 (- a).
Proof.
  intros [A B]. pose proof (bpow_gt_0 radix2 a). pose proof (bpow_gt_0 radix2 b). rewrite !bpow_opp.
  split; apply Rinv_le; lra.
Qed.

Lemma mul_range x y a b c d : bpow radix2 a <= x <= bpow radix2 b -> bpow radix2 c <= y <= bpow radix2 d ->
  bpow radix2 (a + c) <= x * y <= bpow radix2 (b + d).
Proof.
  intros [A B] [C D]. pose proof (bpow_gt_0 radix2 a). pose proof (bpow_gt_0 radix2 c). rewrite !bpow_plus.
  split; apply Rmult_le_compat; lra.
Qed.

Lemma in_100 x a b : bpow radix2 a <= x <= bpow radix2 b -> (-100 <= a)%Z -> (b <= 100)%Z ->
  bpow radix2 (-100) <= Rabs x <= bpow radix2 100.
Proof.
  intros [A B] Ha Hb. pose proof (bpow_gt_0 radix2 a). rewrite Rabs_pos_eq by lra.
  pose proof (bp_le _ _ Ha). pose proof (bp_le _ _ Hb). lra.
Qed.

Lemma below_1000 x : bpow radix2 (-100) <= Rabs x <= bpow radix2 100 -> Rabs x <= bpow radix2 1000.
Proof. intros [_ B]. eapply Rle_trans; [exact B|apply bp_le; lia]. Qed.

Notation "x /// y" := (@fdiv f64 Noise32Ops x y) (at level 40).

Lemma noise_scale32 (x sc : f64) w s : f64_is x w -> f64_is sc s ->
  bpow radix2 (-40) <= w <= bpow radix2 40 -> bpow radix2 (-20) <= s <= bpow radix2 20 ->
  exists g, f64_is (@fsqrt f64 Noise32Ops (f64_ofZ 1 /// (x /// fmul sc sc))) g /\
    Rabs (g - s / sqrt w) <= 5 * u * (s / sqrt w).
Proof.
  intros Hx Hs Rw Rs. pose proof (bpow_gt_0 radix2 (-40)) as P1. pose proof (bpow_gt_0 radix2 (-20)) as P2.
  assert (Pw : 0 < w) by lra. assert (Ps : 0 < s) by lra.
  (* scale squared *)
  assert (R2 : bpow radix2 (-40) <= s * s <= bpow radix2 40) by exact (mul_range _ _ _ _ _ _ Rs Rs).
  pose proof (in_100 _ _ _ R2 ltac:(lia) ltac:(lia)) as N2.
  assert (H2 : f64_is (fmul sc sc) (rnd (s * s))) by (apply mul_is; try assumption; now apply below_1000).
  destruct (op_rel _ _ H2 N2) as (a & Ha & K2 & _).
  set (s2 := s * s * (1 + a)) in *.
  assert (R2' : bpow radix2 (-41) <= s2 <= bpow radix2 41) by exact (range_rel _ _ _ _ Ha R2).
  pose proof (bpow_gt_0 radix2 (-41)) as Q2. assert (Ps2 : 0 < s2) by lra.
  (* the quotient *)
  assert (R3 : bpow radix2 (-81) <= w / s2 <= bpow radix2 81) by exact (mul_range _ _ _ _ _ _ Rw (inv_range _ _ _ R2')).
  pose proof (in_100 _ _ _ R3 ltac:(lia) ltac:(lia)) as N3.
  assert (H3 : f64_is (fdiv x (to_single (fmul sc sc))) (rnd (w / s2))).
  { apply div_is; try assumption; [lra|]. now apply below_1000. }
  destruct (op_rel _ _ H3 N3) as (b & Hb & K3 & S3).
  set (q := w / s2 * (1 + b)) in *.
  assert (R3' : bpow radix2 (-82) <= q <= bpow radix2 82) by exact (range_rel _ _ _ _ Hb R3).
  pose proof (bpow_gt_0 radix2 (-82)) as Q3. assert (Pq : 0 < q) by lra.
  pose proof (to_single_id _ _ K3 S3) as K3'.
  (* its inverse *)
  assert (R4 : bpow radix2 (-82) <= 1 / q <= bpow radix2 82).
  { replace (1 / q) with (/ q) by (field; lra). exact (inv_range _ _ _ R3'). }
  pose proof (in_100 _ _ _ R4 ltac:(lia) ltac:(lia)) as N4.
  assert (H4 : f64_is (fdiv (f64_ofZ 1) (to_single (to_single (fdiv x (to_single (fmul sc sc)))))) (rnd (1 / q))).
  { apply div_is; [apply (f64_ofZ_is 1); lia|exact K3'|lra|]. now apply below_1000. }
  destruct (op_rel _ _ H4 N4) as (c & Hc & K4 & S4).
  set (i := 1 / q * (1 + c)) in *.
  assert (R4' : bpow radix2 (-83) <= i <= bpow radix2 83) by exact (range_rel _ _ _ _ Hc R4).
  pose proof (bpow_gt_0 radix2 (-83)) as Q4. assert (Pi : 0 < i) by lra.
  (* the square root *)
  assert (R5 : bpow radix2 (-42) <= sqrt i <= bpow radix2 42).
  { rewrite <- (sqrt_square (bpow radix2 (-42))) by apply bpow_ge_0. rewrite <- (sqrt_square (bpow radix2 42)) by apply bpow_ge_0.
    rewrite <- !bpow_plus. split; apply sqrt_le_1; try apply bpow_ge_0; try lra.
    - eapply Rle_trans; [|apply R4']. apply bp_le. lia.
    - eapply Rle_trans; [apply R4'|]. apply bp_le. lia. }
  pose proof (in_100 _ _ _ R5 ltac:(lia) ltac:(lia)) as N5.
  assert (H5 : f64_is (fsqrt (to_single (fdiv (f64_ofZ 1) (to_single (to_single (fdiv x (to_single (fmul sc sc)))))))) (rnd (sqrt i))).
  { apply sqrt_is; [exact K4|lra]. }
  destruct (op_rel _ _ H5 N5) as (f & Hf & K5 & _).
  exists (sqrt i * (1 + f)). split; [exact K5|].
  set (P := (1 + a) * (1 + c) / (1 + b)).
  assert (Ub : / 2 < 1 + b) by (apply Rabs_le_inv in Hb; unfold u in Hb; lra).
  assert (Ua : / 2 < 1 + a) by (apply Rabs_le_inv in Ha; unfold u in Ha; lra).
  assert (Ei : i = s * s / w * P).
  { unfold i, q, s2, P. field. lra. }
  assert (HP : Rabs (P - 1) <= 7 / 2 * u).
  { assert (EP : P * (1 + b) = (1 + a) * (1 + c)) by (unfold P; field; lra).
    apply Rabs_le_inv in Ha, Hb, Hc. apply Rabs_le. clearbody P. revert Ha Hb Hc EP Ub. clear. unfold u. intros. split; nra. }
  assert (PP : 0 <= P) by (apply Rabs_le_inv in HP; unfold u in HP; lra).
  assert (Er : sqrt i = s / sqrt w * sqrt P).
  { rewrite Ei, sqrt_mult; [|apply Rlt_le, Rdiv_lt_0_compat; nra|exact PP]. f_equal.
    unfold Rdiv. rewrite sqrt_mult by (try nra; apply Rlt_le, Rinv_0_lt_compat; assumption).
    rewrite sqrt_square by lra. now rewrite sqrt_inv. }
  rewrite Er. assert (HT : 0 < s / sqrt w) by (apply Rdiv_lt_0_compat; [lra|now apply sqrt_lt_R0]).
  pose proof (sqrt_rel P (7 / 2 * u) ltac:(unfold u; lra) HP) as HS.
  set (T := s / sqrt w) in *. set (r := sqrt P) in *.
  replace (T * r * (1 + f) - T) with (T * (r * (1 + f) - 1)) by ring. rewrite Rabs_mult, (Rabs_pos_eq T) by lra.
  rewrite Rmult_comm. apply Rmult_le_compat_r; [lra|].
  apply Rabs_le_inv in HS, Hf. apply Rabs_le. clearbody r. revert HS Hf. clear. unfold u. intros. split; nra.
Qed.

(** The product with the draw, stored. *)
Lemma stored_product (d y : f64) n g T : f64_is d n -> f64_is y g -> Rabs n <= bpow radix2 10 ->
  0 < T <= bpow radix2 90 -> Rabs (g - T) <= 5 * u * T ->
  exists v, f64_is (to_single (fmul d y)) v /\ single v /\
    Rabs (v - n * T) <= bpow radix2 (-21) * Rabs (n * T) + bpow radix2 (-149).
Proof.
  intros Hd Hy Bn [PT BT] Hg.
  set (D := n * T). set (xx := n * g).
  assert (A1 : Rabs (xx - D) <= 5 * u * Rabs D).
  { unfold xx, D. rewrite <- Rmult_minus_distr_l, !Rabs_mult, (Rabs_pos_eq T) by lra. pose proof (Rabs_pos n). nra. }
  assert (BD : Rabs D <= bpow radix2 100).
  { unfold D. rewrite Rabs_mult, (Rabs_pos_eq T) by lra. change 100%Z with (10 + 90)%Z. rewrite bpow_plus.
    apply Rmult_le_compat; try lra. apply Rabs_pos. }
  assert (Kh : bpow radix2 (-1075) <= bpow radix2 (-150) / 4).
  { change (bpow radix2 (-150) / 4) with (bpow radix2 (-150) * bpow radix2 (-2)). rewrite <- bpow_plus. apply bp_le. lia. }
  assert (K149 : bpow radix2 (-149) = 2 * bpow radix2 (-150)).
  { change (-149)%Z with (1 + -150)%Z. now rewrite bpow_plus. }
  assert (K101 : 2 * bpow radix2 100 = bpow radix2 101).
  { change 101%Z with (1 + 100)%Z. now rewrite bpow_plus. }
  assert (K21 : bpow radix2 (-21) = 8 * u) by (cbn; unfold u; lra).
  pose proof (bpow_gt_0 radix2 (-150)) as G150. pose proof (Rabs_pos D) as AD. pose proof uro_pos as Up. pose proof uro_u as Uu.
  assert (Bx : Rabs xx <= 2 * Rabs D).
  { replace xx with ((xx - D) + D) by ring. eapply Rle_trans; [apply Rabs_triang|]. unfold u in A1. nra. }
  assert (Bx' : Rabs xx <= bpow radix2 101) by lra.
  assert (Hm : f64_is (fmul d y) (rnd xx)).
  { apply mul_is; try assumption. eapply Rle_trans; [exact Bx'|apply bp_le; lia]. }
  destruct (rnd_error_gen xx) as (e1 & h1 & He1 & Hh1 & Ey).
  assert (Ae1 : Rabs e1 <= uro) by (pose proof err_le_uro; lra).
  set (m := rnd xx) in *.
  assert (A2 : Rabs (m - xx) <= uro * Rabs xx + bpow radix2 (-1075)).
  { rewrite Ey. replace (xx * (1 + e1) + h1 - xx) with (e1 * xx + h1) by ring.
    eapply Rle_trans; [apply Rabs_triang|]. rewrite Rabs_mult. pose proof (Rabs_pos xx). nra. }
  assert (By : Rabs m <= bpow radix2 120).
  { apply double_small. eapply Rle_trans; [exact Bx'|apply bp_le; lia]. }
  assert (Bv : Rabs (rnd32 m) < bpow radix2 128).
  { eapply Rle_lt_trans; [now apply single_small|apply bpow_lt; lia]. }
  exists (rnd32 m). split; [now apply to_single_is|]. split; [now apply rnd32_single|].
  destruct (rnd32_error m) as (e2 & h2 & He2 & Hh2 & Ev). rewrite u_is in He2.
  assert (A3 : Rabs (rnd32 m - m) <= u * Rabs m + bpow radix2 (-150)).
  { rewrite Ev. replace (m * (1 + e2) + h2 - m) with (e2 * m + h2) by ring.
    eapply Rle_trans; [apply Rabs_triang|]. rewrite Rabs_mult. pose proof (Rabs_pos m). nra. }
  assert (Y1 : Rabs m <= Rabs (m - xx) + Rabs (xx - D) + Rabs D).
  { replace m with ((m - xx) + (xx - D) + D) at 1 by ring.
    eapply Rle_trans; [apply Rabs_triang|]. apply Rplus_le_compat_r, Rabs_triang. }
  assert (V1 : Rabs (rnd32 m - D) <= Rabs (rnd32 m - m) + Rabs (m - xx) + Rabs (xx - D)).
  { replace (rnd32 m - D) with ((rnd32 m - m) + (m - xx) + (xx - D)) by ring.
    eapply Rle_trans; [apply Rabs_triang|]. apply Rplus_le_compat_r, Rabs_triang. }
  rewrite K21, K149. revert V1 Y1 A3 A2 A1 Bx. clear - Kh G150 AD Up Uu.
  generalize (Rabs (rnd32 m - D)) (Rabs (rnd32 m - m)) (Rabs (m - xx)) (Rabs (xx - D)) (Rabs m) (Rabs xx).
  revert Kh G150 AD Up Uu.
  generalize (bpow radix2 (-150)) (bpow radix2 (-1075)) uro (Rabs D).
  intros b h o A Kh G150 AD Up Uu V p q r Y X V1 Y1 A3 A2 A1 Bx. unfold u in *.
  assert (I2 : q <= / 16777216 / 1024 * 2 * A + h) by nra.
  lra.
Qed.

Lemma noise_pixel32 (d x sc : f64) n w s : f64_is d n -> f64_is x w -> f64_is sc s -> Rabs n <= bpow radix2 10 ->
  bpow radix2 (-40) <= w <= bpow radix2 40 -> bpow radix2 (-20) <= s <= bpow radix2 20 ->
  exists v, f64_is (to_single (fmul d (@fsqrt f64 Noise32Ops (f64_ofZ 1 /// (x /// fmul sc sc))))) v /\ single v /\
    Rabs (v - n * (s / sqrt w)) <= bpow radix2 (-21) * Rabs (n * (s / sqrt w)) + bpow radix2 (-149).
Proof.
  intros Hd Hx Hs Bn Rw Rs. destruct (noise_scale32 x sc w s Hx Hs Rw Rs) as (g & Hg & Cg).
  pose proof (bpow_gt_0 radix2 (-40)) as P1. pose proof (bpow_gt_0 radix2 (-20)) as P2.
  assert (Pw : 0 < w) by lra. assert (Ps : 0 < s) by lra. assert (Pr : 0 < sqrt w) by now apply sqrt_lt_R0.
  apply (stored_product d _ n g); try assumption. split; [now apply Rdiv_lt_0_compat|].
  apply Rle_trans with (bpow radix2 (20 + - (-20))); [|apply bp_le; lia].
  unfold Rdiv. rewrite bpow_plus, bpow_opp.
  apply Rmult_le_compat; [lra|apply Rlt_le, Rinv_0_lt_compat; lra|apply Rs|].
  apply Rinv_le; [apply bpow_gt_0|]. rewrite <- (sqrt_square (bpow radix2 (-20))) by apply bpow_ge_0.
  apply sqrt_le_1; [apply Rmult_le_pos; apply bpow_ge_0|lra|]. rewrite <- bpow_plus. apply Rw.
Qed.

(** ** The image *)
Notation le0 x := (@fleb f64 F64Ops x (@fzero f64 F64Ops)).

Lemma used_weight32 (x m : f64) v w : f64_is x v -> f64_is m w -> Rabs v <= bpow radix2 1000 ->
  Rabs w <= bpow radix2 1000 -> single v -> single w ->
  f64_is (to_single (fadd (fmul x (fofb (FO := F64Ops) (negb (le0 x)))) (fmul (fofb (FO := F64Ops) (le0 x)) m)))
    (if Rle_dec v 0 then w else v).
Proof.
  intros Hx Hm Bv Bw Sv Sw. apply to_single_id; [now apply used_weight|]. now destruct (Rle_dec v 0).
Qed.

Lemma epoch_noise_single (normal : Z -> Z -> f64) (wgt : img f64) (scale : f64) (seed : Z)
  (nv : Z -> R) (wv : Z -> Z -> R) (s : R) :
  wf wgt ->
  (forall r c, inb wgt r c -> f64_is (px wgt r c) (wv r c) /\ single (wv r c) /\
     (- bpow radix2 40 <= wv r c <= 0 \/ bpow radix2 (-40) <= wv r c <= bpow radix2 40)) ->
  f64_is scale s -> bpow radix2 (-20) <= s <= bpow radix2 20 ->
  (forall k, (0 <= k < nrows wgt * ncols wgt)%Z -> f64_is (normal seed k) (nv k) /\ Rabs (nv k) <= bpow radix2 10) ->
  ((forall r c, inb wgt r c -> wv r c <= 0) ->
   get_noise_image_f4 normal wgt scale seed = Raise ValueError) /\
  (forall r0 c0, inb wgt r0 c0 -> wv r0 c0 > 0 ->
   exists im m,
   get_noise_image_f4 normal wgt scale seed = Ok im /\
   nrows im = nrows wgt /\ ncols im = ncols wgt /\
   (exists r c, inb wgt r c /\ wv r c = m) /\
   (forall r c, inb wgt r c -> wv r c <= m) /\
   forall r c, inb wgt r c ->
     let t := nv (draw_pos (nrows wgt) (ncols wgt) 1024 1024 r c)
              * (s / sqrt (if Rle_dec (wv r c) 0 then m else wv r c)) in
     exists v, f64_is (px im r c) v /\ single v /\
       Rabs (v - t) <= bpow radix2 (-21) * Rabs t + bpow radix2 (-149)).
Proof.
  intros Hwf Hw Hs Rs Hn. unfold get_noise_image_f4, get_noise_image.
  assert (Z0 : f64_is (fzero : f64) 0) by (apply (f64_ofZ_is 0); lia).
  change (filter _ (ravel wgt)) with (filter (fun w => negb (le0 w)) (ravel wgt)).
  set (l := filter _ (ravel wgt)).
  assert (Lw : forall r c, inb wgt r c -> le0 (px wgt r c) = true <-> wv r c <= 0).
  { intros r c Hb. apply f64_leb_is; [apply Hw, Hb|exact Z0]. }
  assert (Hl : forall x, In x l <-> exists r c, inb wgt r c /\ px wgt r c = x /\ 0 < wv r c).
  { intros x. unfold l. rewrite filter_In, In_ravel. split.
    - intros ((r & c & Hb & <-) & N). exists r, c. split; [exact Hb|]. split; [reflexivity|].
      specialize (Lw r c Hb). destruct (le0 (px wgt r c)); [discriminate|].
      destruct (Rle_or_lt (wv r c) 0) as [K|K]; [|exact K]. destruct Lw as [_ Lw]. discriminate (Lw K).
    - intros (r & c & Hb & <- & K). split; [eauto|]. specialize (Lw r c Hb).
      destruct (le0 (px wgt r c)); [|reflexivity]. destruct Lw as [Lw _]. specialize (Lw eq_refl). lra. }
  split.
  - intros Hz. destruct l as [|x l'] eqn:E; [reflexivity|]. exfalso.
    destruct (proj1 (Hl x) ltac:(now left)) as (r & c & Hb & _ & K). pose proof (Hz r c Hb). lra.
  - intros r0 c0 Hb0 Hp0.
    assert (In0 : In (px wgt r0 c0) l) by (apply Hl; eauto).
    assert (HF : Forall2 f64_is l (map f64_val l)).
    { assert (G : forall y, In y l -> f64_is y (f64_val y)).
      { intros y Hy. apply Hl in Hy as (r & c & Hb & <- & _). destruct (Hw r c Hb) as [H _].
        destruct H as (A & B & C). repeat split; assumption. }
      clear - G. revert G. generalize l. intros k. induction k as [|y k IH]; intros G; cbn; constructor.
      - apply G. now left.
      - apply IH. intros z Hz. apply G. now right. }
    destruct l as [|x l'] eqn:El; [destruct In0|]. cbn [map] in HF. inversion HF as [|? ? ? ? Hx HF']; subst.
    destruct (amax_is l' _ HF' x _ Hx) as (mv & Hm & Hin & Hle). cbn [np_max bind].
    change (fold_left _ l' x) with (fold_left (@fmax f64 F64Ops) l' x).
    set (mx := fold_left (@fmax f64 F64Ops) l' x) in *.
    assert (Vw : forall r c, inb wgt r c -> f64_val (px wgt r c) = wv r c).
    { intros r c Hb. destruct (Hw r c Hb) as [(_ & _ & C) _]. exact C. }
    assert (Hat : exists r c, inb wgt r c /\ wv r c = mv /\ 0 < mv).
    { change (f64_val x :: map f64_val l') with (map f64_val (x :: l')) in Hin.
      apply in_map_iff in Hin as (y & Ey & Hy). apply Hl in Hy as (r & c & Hb & <- & K).
      exists r, c. rewrite <- Ey, Vw by exact Hb. auto. }
    destruct Hat as (rm & cm & Hbm & Em & Pm).
    assert (Bm : bpow radix2 (-40) <= mv <= bpow radix2 40).
    { destruct (Hw rm cm Hbm) as (_ & _ & [K|K]); rewrite Em in K; [lra|exact K]. }
    assert (Sm : single mv) by (rewrite <- Em; apply Hw, Hbm).
    set (weight := imap2 _ wgt _).
    destruct (noise_image_spec (FO := Noise32Ops) normal to_single seed weight None 1024 1024 ltac:(lia) ltac:(lia) Hwf)
      as (im & E & E1 & E2 & E3).
    rewrite E. cbn [bind]. exists im, mv.
    split; [reflexivity|]. split; [exact E1|]. split; [exact E2|]. split; [eauto|]. split.
    { intros r c Hb. destruct (Rle_or_lt (wv r c) 0) as [K|K]; [lra|].
      rewrite <- Vw by exact Hb. apply Hle. change (In (f64_val (px wgt r c)) (map f64_val (x :: l'))).
      apply in_map. apply Hl. eauto. }
    intros r c Hb. rewrite E3 by exact Hb. unfold noise_px.
    change (nrows weight) with (nrows wgt). change (ncols weight) with (ncols wgt).
    destruct (Hn (draw_pos (nrows wgt) (ncols wgt) 1024 1024 r c)) as [Hd Bd].
    { destruct Hb. apply draw_range; lia. }
    cbn [zwgt]. destruct (Hw r c Hb) as (Hx1 & Sx1 & Rx1).
    assert (B1000 : bpow radix2 40 <= bpow radix2 1000) by (apply bp_le; lia).
    pose proof (bpow_gt_0 radix2 (-40)) as P40.
    assert (U : f64_is (to_single (fadd (fmul (px wgt r c) (fofb (FO := F64Ops) (negb (le0 (px wgt r c)))))
                          (fmul (fofb (FO := F64Ops) (le0 (px wgt r c))) mx)))
                  (if Rle_dec (wv r c) 0 then mv else wv r c)).
    { apply used_weight32; try assumption; apply Rabs_le; lra. }
    apply (noise_pixel32 _ _ scale _ _ s Hd U Hs Bd); [|exact Rs].
    destruct (Rle_dec (wv r c) 0); [exact Bm|]. destruct Rx1; lra.
Qed.
