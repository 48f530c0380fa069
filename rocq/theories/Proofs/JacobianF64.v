(** The WCS Jacobian in double precision. *)
From Coq Require Import ZArith List Bool Lia Reals Lra SpecFloat.
From Flocq Require Import Core BinarySingleNaN.
From Coq Require Import List.
From Verif Require Import Lib.Base Lib.Floats Model.Wrap Spec.FloatSpec Spec.WrapSpec
  Proofs.BaseFacts Proofs.F64Facts Proofs.RoundSum Proofs.LanczosF64 Proofs.FwhmF64 Proofs.AffineF64
  Proofs.WrapProofs Proofs.WrapF64.
Import ListNotations.
Open Scope R_scope.

#[local] Instance Hprec : Prec_gt_0 53 := eq_refl _.
#[local] Instance Hmax : Prec_lt_emax 53 1024 := eq_refl _.
#[local] Instance fexp64_valid : Valid_exp fexp64 := fexp_correct 53 1024 _.
#[local] Instance fexp64_mono : Monotone_exp fexp64 := fexp_monotone 53 1024.

(** *** Differences *)
Lemma wrap_up (x y : f64) n : wrap_ra_diff n x = Some y ->
  forall m, (n <= m)%nat -> wrap_ra_diff m x = Some y.
Proof.
  intros Hn m Hm. revert Hn. unfold wrap_ra_diff. destruct (negb _); [easy|].
  destruct (while_loop _ _ n _) as [a|] eqn:E; [|discriminate].
  rewrite (while_mono _ _ n m _ a Hm E). apply while_mono. assumption.
Qed.

Lemma diff_is (p q : f64) r r' B : f64_is p r -> f64_is q r' -> Rabs r <= B -> Rabs r' <= B -> 0 <= B <= 1000 ->
  exists d, f64_is (fsub p q) d /\ Rabs (d - (r - r')) <= uro * (2 * B + uro).
Proof.
  intros Hp Hq Bp Bq RB. pose proof big_80 as K.
  assert (S : Rabs (r - r') <= 2 * B).
  { apply Rabs_le_inv in Bp. apply Rabs_le_inv in Bq. apply Rabs_le. lra. }
  exists (rnd (r - r')). split; [apply sub_is; try assumption; lra|]. now apply rnd_step.
Qed.

(** The difference of two right ascensions, wrapped. *)
Lemma ra_diff (p q : f64 * f64) lon lat lon' lat' eps : wcs_answers p lon lat eps -> wcs_answers q lon' lat' eps ->
  Rabs (lon - lon') <= 179 -> eps <= 1 / 10 ->
  exists n w w', (forall m, (n <= m)%nat -> wrap_ra_diff m (fsub (fst p) (fst q)) = Some w) /\ f64_is w w' /\
    Rabs (w' - (lon - lon')) <= 2 * eps + 1441 * uro.
Proof.
  intros (r & d & k & Hr & _ & Sr & _ & Er & _) (r' & d' & k' & Hr' & _ & Sr' & _ & Er' & _) BD Be.
  pose proof uro_fine as U. pose proof uro_pos as U0.
  assert (UU : uro * uro <= uro) by nra.
  destruct (diff_is _ _ _ _ 720 Hr Hr' Sr Sr' ltac:(lra)) as (x & Hx & Ex).
  set (D := lon - lon') in *.
  set (w' := x - 360 * IZR (k - k')).
  assert (E : Rabs (w' - D) <= 2 * eps + 1441 * uro).
  { unfold w', D. rewrite minus_IZR. apply Rabs_le_inv in Ex. apply Rabs_le_inv in Er. apply Rabs_le_inv in Er'.
    apply Rabs_le. lra. }
  assert (Sw : Rabs w' < 180).
  { apply Rabs_le_inv in BD. apply Rabs_le_inv in E. apply Rabs_def1; lra. }
  assert (Sx : Rabs x <= 1441).
  { apply Rabs_le_inv in Ex. apply Rabs_le_inv in Sr. apply Rabs_le_inv in Sr'. apply Rabs_le. lra. }
  assert (H56 : 1441 <= bpow radix2 56) by (change (bpow radix2 56) with (IZR (2 ^ 56)); apply IZR_le; lia).
  assert (H62 : bpow radix2 56 <= bpow radix2 62) by (apply bpow_le; lia).
  destruct (wrap_f64_terminates _ _ Hx ltac:(lra)) as (n & w & Hw).
  exists n, w, w'. split; [exact (wrap_up _ _ _ Hw)|]. split; [|exact E].
  pose proof (wrap_f64_exact _ _ n Hx ltac:(lra)) as G. rewrite Hw in G.
  destruct (wrap_ra_diff n x) as [v|] eqn:Ev; [|contradiction].
  assert (W : wrapped x v) by (apply wrap_exact_iff; eauto).
  assert (W2 : wrapped x w').
  { replace x with (w' + 360 * IZR (k - k')) by (unfold w'; ring). now apply wrapped_small. }
  rewrite <- (wrapped_unique _ _ _ W W2). exact G.
Qed.

Lemma dec_diff (p q : f64 * f64) lon lat lon' lat' eps : wcs_answers p lon lat eps -> wcs_answers q lon' lat' eps ->
  eps <= 1 / 10 ->
  exists w', f64_is (fsub (snd p) (snd q)) w' /\ Rabs (w' - (lat - lat')) <= 2 * eps + 1441 * uro /\ Rabs (lat - lat') <= 181.
Proof.
  intros (r & d & k & _ & Hd & _ & Sd & _ & Ed) (r' & d' & k' & _ & Hd' & _ & Sd' & _ & Ed') Be.
  pose proof uro_fine as U. pose proof uro_pos as U0.
  assert (UU : uro * uro <= uro) by nra.
  destruct (diff_is _ _ _ _ 90 Hd Hd' Sd Sd' ltac:(lra)) as (x & Hx & Ex).
  exists x. split; [exact Hx|]. apply Rabs_le_inv in Ex. apply Rabs_le_inv in Sd. apply Rabs_le_inv in Sd'.
  apply Rabs_le_inv in Ed. apply Rabs_le_inv in Ed'. split; apply Rabs_le; lra.
Qed.

(** *** The factor *)
Section Factor.
Variables (step : f64) (s : R).
Hypothesis Hs : f64_is step s. Hypothesis Bs : / 1048576 <= s <= 1048576.
Let k := 1800 / s.

Lemma k_range : / 1000 <= k <= 2000000000.
Proof.
  unfold k. split.
  - apply Rmult_le_reg_r with s; [lra|]. unfold Rdiv. rewrite Rmult_assoc, Rinv_l by lra. lra.
  - apply Rmult_le_reg_r with s; [lra|]. unfold Rdiv. rewrite Rmult_assoc, Rinv_l by lra. lra.
Qed.

Lemma factor_is : exists f, f64_is (fmul (fdiv fone (fmul (fofZ 2) step)) (fofZ 3600)) f /\
  Rabs (f - k) <= 3.2 * (uro * k).
Proof.
  pose proof uro_fine as U. pose proof uro_pos as U0. pose proof big_80 as K. pose proof k_range as RK.
  set (h := / (2 * s)).
  assert (Eh : h * (2 * s) = 1) by (unfold h; field; lra).
  assert (Ek : k = 3600 * h) by (unfold k, h; field; lra).
  assert (Rh : / 3600000 <= h <= 1000000) by lra.
  assert (T2 : f64_is (fofZ 2 : f64) 2) by (apply (f64_ofZ_is 2); lia).
  assert (T3 : f64_is (fofZ 3600 : f64) 3600) by (apply (f64_ofZ_is 3600); lia).
  destruct (mul_step (fofZ 2) step 2 2 s s s 0 T2) as (t & Ht & Et).
  { rewrite Rabs_pos_eq; lra. } { exact Hs. } { apply exact_step. } { rewrite Rabs_pos_eq; lra. } { lra. }
  assert (uU : uro * uro <= / 1000 * (uro * s)).
  { replace (/ 1000 * (uro * s)) with (uro * (/ 1000 * s)) by ring. apply Rmult_le_compat_l; lra. }
  assert (us : 0 <= uro * s) by (apply Rmult_le_pos; lra).
  assert (us2 : uro * s <= / 1000000 * s) by (apply Rmult_le_compat_r; lra).
  assert (Et' : Rabs (t - 2 * s) <= 2.01 * (uro * s)) by lra.
  clear Et.
  assert (DV : (0 + 2.01 * (uro * s) * h) / (Rabs (2 * s) - 2.01 * (uro * s)) <= 1.01 * (uro * h)).
  { rewrite Rabs_pos_eq by lra. apply Rmult_le_reg_r with (2 * s - 2.01 * (uro * s)); [lra|].
    unfold Rdiv. rewrite Rmult_assoc, Rinv_l, Rmult_1_r by lra.
    replace (0 + 2.01 * (uro * s) * h) with (2.01 * ((uro * h) * s)) by ring.
    assert (uh : 0 <= uro * h) by (apply Rmult_le_pos; lra).
    replace (1.01 * (uro * h) * (2 * s - 2.01 * (uro * s))) with (1.01 * ((uro * h) * (2 * s - 2.01 * (uro * s)))) by ring.
    assert ((uro * h) * (1.999 * s) <= (uro * h) * (2 * s - 2.01 * (uro * s))) by (apply Rmult_le_compat_l; lra).
    assert (0 <= uro * h * s) by (apply Rmult_le_pos; lra). lra. }
  assert (uh : 0 <= uro * h) by (apply Rmult_le_pos; lra).
  assert (uh2 : uro * h <= / 1000000 * h) by (apply Rmult_le_compat_r; lra).
  assert (uV : uro * uro <= / 1000 * (uro * h)).
  { replace (/ 1000 * (uro * h)) with (uro * (/ 1000 * h)) by ring. apply Rmult_le_compat_l; lra. }
  destruct (div_step fone (fmul (fofZ 2) step) h h 1 0 (2 * s) t (2.01 * (uro * s)) one_is) as (g & Hg & Eg).
  { replace (1 - 2 * s * h) with 0 by lra. rewrite Rabs_R0. lra. }
  { rewrite Rabs_pos_eq; lra. } { exact Ht. } { exact Et'. } { rewrite Rabs_pos_eq; lra. } { lra. }
  set (G := (0 + 2.01 * (uro * s) * h) / (Rabs (2 * s) - 2.01 * (uro * s))) in *.
  assert (Eg' : Rabs (g - h) <= 2.1 * (uro * h)).
  { assert (uro * (h + G + uro) <= uro * (1.01 * h) + uro * uro).
    { rewrite <- Rmult_plus_distr_l. apply Rmult_le_compat_l; lra. }
    lra. }
  assert (Sg : Rabs g <= h + 2.1 * (uro * h)) by (eapply near_size; [exact Eg'|]; rewrite Rabs_pos_eq; lra).
  destruct (mul_step (fdiv fone (fmul (fofZ 2) step)) (fofZ 3600) g (h + 2.1 * (uro * h)) 3600 3600 3600 0 Hg Sg T3) as (z & Hz & Ez).
  { apply exact_step. } { rewrite Rabs_pos_eq; lra. } { lra. }
  exists z. split; [exact Hz|].
  assert (uk : uro * k = 3600 * (uro * h)) by (rewrite Ek; ring).
  rewrite uk, Ek.
  assert (uro * ((h + 2.1 * (uro * h)) * (3600 + 0) + uro) <= 3601 * (uro * h) + uro * uro).
  { replace (3601 * (uro * h) + uro * uro) with (uro * (3601 * h + uro)) by ring. apply Rmult_le_compat_l; lra. }
  replace (z - 3600 * h) with ((z - g * 3600) + 3600 * (g - h)) by ring.
  apply Rabs_le_inv in Ez. apply Rabs_le_inv in Eg'. apply Rabs_le. lra.
Qed.

(** A difference times the factor. *)
Lemma scaled f (F w : f64) w' D e : f64_is F f -> Rabs (f - k) <= 3.2 * (uro * k) ->
  f64_is w w' -> Rabs (w' - D) <= e -> Rabs D <= 181 -> 0 <= e <= 1 ->
  exists z, f64_is (fmul F w) z /\ Rabs (z - k * D) <= k * (1.001 * e + 770 * uro) /\ Rabs z <= 183 * k.
Proof.
  intros Hf Ef Hw Ew BD Re.
  pose proof uro_fine as U. pose proof uro_pos as U0. pose proof big_80 as K. pose proof k_range as RK.
  assert (uk : 0 <= uro * k) by (apply Rmult_le_pos; lra).
  assert (uk2 : uro * k <= / 1000000 * k) by (apply Rmult_le_compat_r; lra).
  assert (uV : uro * uro <= / 1000 * (uro * k)).
  { replace (/ 1000 * (uro * k)) with (uro * (/ 1000 * k)) by ring. apply Rmult_le_compat_l; [lra|]. lra. }
  assert (Sf : Rabs f <= 1.001 * k).
  { eapply Rle_trans; [eapply near_size; [exact Ef|]; rewrite Rabs_pos_eq; [apply Rle_refl|lra]|]. lra. }
  destruct (mul_step F w f (1.001 * k) D w' 181 e Hf Sf Hw Ew BD) as (z & Hz & Ez).
  { assert (1.001 * k * (181 + e) <= 1.001 * k * 182) by (apply Rmult_le_compat_l; lra). lra. }
  exists z. split; [exact Hz|].
  assert (T1 : uro * (1.001 * k * (181 + e) + uro) <= 182.2 * (uro * k) + uro * uro).
  { replace (182.2 * (uro * k) + uro * uro) with (uro * (182.2 * k + uro)) by ring. apply Rmult_le_compat_l; [lra|].
    assert (1.001 * k * (181 + e) <= 1.001 * k * 182) by (apply Rmult_le_compat_l; lra). lra. }
  assert (T2 : Rabs ((f - k) * D) <= 3.2 * (uro * k) * 181).
  { rewrite Rabs_mult. apply Rmult_le_compat; try apply Rabs_pos; assumption. }
  assert (E : Rabs (z - k * D) <= k * (1.001 * e + 770 * uro)).
  { replace (z - k * D) with ((z - f * D) + (f - k) * D) by ring.
    eapply Rle_trans; [apply Rabs_triang|].
    replace (k * (1.001 * e + 770 * uro)) with (1.001 * k * e + 770 * (uro * k)) by ring. lra. }
  split; [exact E|].
  assert (Rabs (k * D) <= 181 * k).
  { rewrite Rabs_mult, (Rabs_pos_eq k) by lra. assert (k * Rabs D <= k * 181) by (apply Rmult_le_compat_l; lra). lra. }
  eapply Rle_trans; [eapply near_size; [exact E|exact H]|].
  assert (k * (1.001 * e + 770 * uro) <= k * 1.01) by (apply Rmult_le_compat_l; lra). lra.
Qed.

(** The same times minus a cosine. *)
Lemma with_cos (Z C : f64) z c D e : f64_is Z z -> Rabs (z - k * D) <= e -> Rabs z <= 183 * k ->
  f64_is C c -> Rabs c <= 1 ->
  exists v, f64_is (fmul Z (fneg C)) v /\ Rabs (v - k * D * - c) <= e + 184 * (uro * k).
Proof.
  intros Hz Ez Sz Hc Bc.
  pose proof uro_fine as U. pose proof uro_pos as U0. pose proof big_80 as K. pose proof k_range as RK.
  assert (uV : uro * uro <= / 1000 * (uro * k)).
  { replace (/ 1000 * (uro * k)) with (uro * (/ 1000 * k)) by ring. apply Rmult_le_compat_l; [lra|]. lra. }
  assert (uk : 0 <= uro * k) by (apply Rmult_le_pos; lra).
  assert (Hn : f64_is (fneg C) (- c)).
  { replace (- c) with (rnd (0 - c)).
    - apply sub_is; [apply (f64_ofZ_is 0); lia|exact Hc|]. rewrite Rminus_0_l, Rabs_Ropp. lra.
    - rewrite Rminus_0_l. apply rnd_id, generic_format_opp, (fmt_of _ _ Hc). }
  assert (Bn : Rabs (- c) <= 1) by now rewrite Rabs_Ropp.
  destruct (mul_step Z (fneg C) z (183 * k) (- c) (- c) 1 0 Hz Sz Hn (exact_step _) Bn ltac:(lra)) as (v & Hv & Ev).
  exists v. split; [exact Hv|].
  replace (v - k * D * - c) with ((v - z * - c) + (z - k * D) * - c) by ring.
  eapply Rle_trans; [apply Rabs_triang|]. rewrite (Rabs_mult (z - k * D)).
  assert (Rabs (z - k * D) * Rabs (- c) <= e * 1).
  { apply Rmult_le_compat; try apply Rabs_pos; assumption. }
  replace (uro * (183 * k * (1 + 0) + uro)) with (183 * (uro * k) + uro * uro) in Ev by ring. lra.
Qed.
End Factor.

Theorem jacobian_double (sky : f64 -> f64 -> f64 * f64) (cos : f64 -> f64) (d2r x y step : f64) s c eps
  lon1 lat1 lon2 lat2 lon3 lat3 lon4 lat4 :
  f64_is step s -> / 1048576 <= s <= 1048576 -> 0 <= eps <= 1 / 10 ->
  wcs_answers (sky (fadd x step) y) lon1 lat1 eps -> wcs_answers (sky (fsub x step) y) lon2 lat2 eps ->
  wcs_answers (sky x (fadd y step)) lon3 lat3 eps -> wcs_answers (sky x (fsub y step)) lon4 lat4 eps ->
  Rabs (lon1 - lon2) <= 179 -> Rabs (lon3 - lon4) <= 179 ->
  f64_is (cos (fmul (snd (sky x y)) d2r)) c -> Rabs c <= 1 ->
  exists n j1 j2 j3 j4 v1 v2 v3 v4,
    (forall m, (n <= m)%nat -> get_jacobian sky cos d2r m x y step = Some (j1, j2, j3, j4)) /\
    f64_is j1 v1 /\ f64_is j2 v2 /\ f64_is j3 v3 /\ f64_is j4 v4 /\
    Rabs (v1 - 1800 / s * (lon1 - lon2) * - c) <= 4000 / s * (eps + bpow radix2 (-42)) /\
    Rabs (v2 - 1800 / s * (lon3 - lon4) * - c) <= 4000 / s * (eps + bpow radix2 (-42)) /\
    Rabs (v3 - 1800 / s * (lat1 - lat2)) <= 4000 / s * (eps + bpow radix2 (-42)) /\
    Rabs (v4 - 1800 / s * (lat3 - lat4)) <= 4000 / s * (eps + bpow radix2 (-42)).
Proof.
  intros Hs Bs Re A1 A2 A3 A4 B1 B2 Hc Bc.
  pose proof uro_fine as U. pose proof uro_pos as U0. pose proof (k_range s Bs) as RK.
  assert (E42 : bpow radix2 (-42) = 2048 * uro).
  { unfold uro. replace (-42)%Z with (11 + -53)%Z by lia. rewrite bpow_plus. reflexivity. }
  assert (TOT : forall v t, Rabs (v - t) <= 1800 / s * (1.001 * (2 * eps + 1441 * uro) + 770 * uro) + 184 * (uro * (1800 / s)) ->
    Rabs (v - t) <= 4000 / s * (eps + bpow radix2 (-42))).
  { intros v t H. eapply Rle_trans; [exact H|]. rewrite E42.
    replace (4000 / s) with (1800 / s * (40 / 18)) by (field; lra).
    replace (1800 / s * (1.001 * (2 * eps + 1441 * uro) + 770 * uro) + 184 * (uro * (1800 / s)))
      with (1800 / s * (1.001 * (2 * eps + 1441 * uro) + 770 * uro + 184 * uro)) by ring.
    rewrite Rmult_assoc. apply Rmult_le_compat_l; lra. }
  assert (uk : 0 <= uro * (1800 / s)) by (apply Rmult_le_pos; lra).
  destruct (factor_is step s Hs Bs) as (f & Hf & Ef).
  destruct (ra_diff _ _ _ _ _ _ _ A1 A2 B1 ltac:(lra)) as (n1 & w1 & w1' & L1 & Hw1 & E1).
  destruct (ra_diff _ _ _ _ _ _ _ A3 A4 B2 ltac:(lra)) as (n2 & w2 & w2' & L2 & Hw2 & E2).
  destruct (dec_diff _ _ _ _ _ _ _ A1 A2 ltac:(lra)) as (w3' & Hw3 & E3 & B3).
  destruct (dec_diff _ _ _ _ _ _ _ A3 A4 ltac:(lra)) as (w4' & Hw4 & E4 & B4).
  unfold get_jacobian.
  destruct (sky (fadd x step) y) as [ra1 de1]. destruct (sky (fsub x step) y) as [ra2 de2].
  destruct (sky x (fadd y step)) as [ra3 de3]. destruct (sky x (fsub y step)) as [ra4 de4].
  cbn [fst snd] in *. set (F := fmul (fdiv fone (fmul (fofZ 2) step)) (fofZ 3600)) in *.
  assert (R1 : 0 <= 2 * eps + 1441 * uro <= 1) by lra.
  assert (B1' : Rabs (lon1 - lon2) <= 181) by lra. assert (B2' : Rabs (lon3 - lon4) <= 181) by lra.
  destruct (scaled s Bs f F w1 w1' _ _ Hf Ef Hw1 E1 B1' R1) as (z1 & Z1 & D1 & S1).
  destruct (scaled s Bs f F w2 w2' _ _ Hf Ef Hw2 E2 B2' R1) as (z2 & Z2 & D2 & S2).
  destruct (scaled s Bs f F _ w3' _ _ Hf Ef Hw3 E3 B3 R1) as (z3 & Z3 & D3 & S3).
  destruct (scaled s Bs f F _ w4' _ _ Hf Ef Hw4 E4 B4 R1) as (z4 & Z4 & D4 & S4).
  destruct (with_cos s Bs _ _ z1 c _ _ Z1 D1 S1 Hc Bc) as (v1 & V1 & G1).
  destruct (with_cos s Bs _ _ z2 c _ _ Z2 D2 S2 Hc Bc) as (v2 & V2 & G2).
  eexists (max n1 n2), _, _, _, _, v1, v2, z3, z4. split.
  - intros m Hm. rewrite (L1 m) by lia. rewrite (L2 m) by lia. reflexivity.
  - repeat (split; [eassumption|]). split; [apply TOT; lra|]. split; [apply TOT; lra|].
    split; apply TOT; lra.
Qed.

Lemma wcs_answers_weaken p lon lat eps lon' lat' eps' : wcs_answers p lon lat eps ->
  Rabs (lon - lon') <= eps' - eps -> Rabs (lat - lat') <= eps' - eps -> wcs_answers p lon' lat' eps'.
Proof.
  intros (r & d & k & Hr & Hd & Sr & Sd & Er & Ed) H1 H2. exists r, d, k.
  repeat (split; [assumption|]). apply Rabs_le_inv in Er. apply Rabs_le_inv in Ed.
  apply Rabs_le_inv in H1. apply Rabs_le_inv in H2. split; apply Rabs_le; lra.
Qed.

(** A position one step away. *)
Lemma moved (z step : f64) v s P : f64_is z v -> f64_is step s -> 0 < s -> Rabs v + s + 1 <= P -> 1 <= P <= 1073741824 ->
  (exists t, f64_is (fadd z step) t /\ Rabs t <= P /\ Rabs (t - (v + s)) <= uro * P) /\
  (exists t, f64_is (fsub z step) t /\ Rabs t <= P /\ Rabs (t - (v - s)) <= uro * P).
Proof.
  intros Hz Hs S0 B RP. pose proof uro_fine as U. pose proof uro_pos as U0. pose proof big_80 as K.
  assert (uP : uro * P <= / 1000000).
  { eapply Rle_trans; [apply Rmult_le_compat; [lra|lra|exact U|apply RP]|]. lra. }
  pose proof (Rle_abs v) as V1. pose proof (Rle_abs (- v)) as V2. rewrite Rabs_Ropp in V2.
  assert (S1 : Rabs (v + s) <= P - 1) by (apply Rabs_le; lra).
  assert (S2 : Rabs (v - s) <= P - 1) by (apply Rabs_le; lra).
  assert (E1 : Rabs (rnd (v + s) - (v + s)) <= uro * P).
  { eapply Rle_trans; [apply rnd_step, S1|]. apply Rmult_le_compat_l; lra. }
  assert (E2 : Rabs (rnd (v - s) - (v - s)) <= uro * P).
  { eapply Rle_trans; [apply rnd_step, S2|]. apply Rmult_le_compat_l; lra. }
  split.
  - exists (rnd (v + s)). split; [apply add_is; try assumption; lra|]. split; [|exact E1].
    eapply Rle_trans; [eapply near_size; [exact E1|exact S1]|]. lra.
  - exists (rnd (v - s)). split; [apply sub_is; try assumption; lra|]. split; [|exact E2].
    eapply Rle_trans; [eapply near_size; [exact E2|exact S2]|]. lra.
Qed.

Theorem jacobian_affine_double (sky : f64 -> f64 -> f64 * f64) (cos : f64 -> f64) (d2r x y step : f64)
  r0 rx ry d0 dx dy vx vy s c eps P :
  (forall (X Y : f64) a b, f64_is X a -> f64_is Y b -> Rabs a <= P -> Rabs b <= P ->
     wcs_answers (sky X Y) (r0 + rx * a + ry * b) (d0 + dx * a + dy * b) eps) ->
  Rabs rx <= 1 -> Rabs ry <= 1 -> Rabs dx <= 1 -> Rabs dy <= 1 ->
  f64_is x vx -> f64_is y vy -> f64_is step s -> / 1048576 <= s <= 1048576 -> 0 <= eps <= 1 / 20 ->
  Rabs vx + s + 1 <= P -> Rabs vy + s + 1 <= P -> 1 <= P <= 1073741824 ->
  Rabs (2 * rx * s) <= 179 -> Rabs (2 * ry * s) <= 179 ->
  f64_is (cos (fmul (snd (sky x y)) d2r)) c -> Rabs c <= 1 ->
  exists n j1 j2 j3 j4 v1 v2 v3 v4,
    (forall m, (n <= m)%nat -> get_jacobian sky cos d2r m x y step = Some (j1, j2, j3, j4)) /\
    f64_is j1 v1 /\ f64_is j2 v2 /\ f64_is j3 v3 /\ f64_is j4 v4 /\
    Rabs (v1 - - (3600 * rx * c)) <= 4000 / s * (eps + uro * P + bpow radix2 (-42)) /\
    Rabs (v2 - - (3600 * ry * c)) <= 4000 / s * (eps + uro * P + bpow radix2 (-42)) /\
    Rabs (v3 - 3600 * dx) <= 4000 / s * (eps + uro * P + bpow radix2 (-42)) /\
    Rabs (v4 - 3600 * dy) <= 4000 / s * (eps + uro * P + bpow radix2 (-42)).
Proof.
  intros HA Brx Bry Bdx Bdy Hx Hy Hs Bs Re Bx By RP T1 T2 Hc Bc.
  pose proof uro_fine as U. pose proof uro_pos as U0.
  assert (uP : 0 <= uro * P <= / 1000000).
  { split; [apply Rmult_le_pos; lra|]. eapply Rle_trans; [apply Rmult_le_compat; [lra|lra|exact U|apply RP]|]. lra. }
  destruct (moved x step vx s P Hx Hs ltac:(lra) Bx RP) as [(xp & Hxp & Sxp & Exp) (xm & Hxm & Sxm & Exm)].
  destruct (moved y step vy s P Hy Hs ltac:(lra) By RP) as [(yp & Hyp & Syp & Eyp) (ym & Hym & Sym & Eym)].
  assert (Sx : Rabs vx <= P) by lra. assert (Sy : Rabs vy <= P) by lra.
  assert (MV : forall p l0 lx ly k0 kx ky a b a' b', wcs_answers p (l0 + lx * a + ly * b) (k0 + kx * a + ky * b) eps ->
    Rabs lx <= 1 -> Rabs ly <= 1 -> Rabs kx <= 1 -> Rabs ky <= 1 ->
    Rabs (a - a') + Rabs (b - b') <= uro * P ->
    wcs_answers p (l0 + lx * a' + ly * b') (k0 + kx * a' + ky * b') (eps + uro * P)).
  { intros p l0 lx ly k0 kx ky a b a' b' A B1 B2 B3 B4 E. eapply wcs_answers_weaken; [exact A| |].
    - replace (l0 + lx * a + ly * b - (l0 + lx * a' + ly * b')) with (lx * (a - a') + ly * (b - b')) by ring.
      eapply Rle_trans; [apply Rabs_triang|]. rewrite !Rabs_mult.
      pose proof (Rabs_pos (a - a')). pose proof (Rabs_pos (b - b')). nra.
    - replace (k0 + kx * a + ky * b - (k0 + kx * a' + ky * b')) with (kx * (a - a') + ky * (b - b')) by ring.
      eapply Rle_trans; [apply Rabs_triang|]. rewrite !Rabs_mult.
      pose proof (Rabs_pos (a - a')). pose proof (Rabs_pos (b - b')). nra. }
  assert (Z : forall t, Rabs (t - t) = 0) by (intros; rewrite Rminus_diag_eq, Rabs_R0; reflexivity).
  pose proof (MV _ _ _ _ _ _ _ _ _ (vx + s) vy (HA _ _ _ _ Hxp Hy Sxp Sy) Brx Bry Bdx Bdy ltac:(rewrite Z; lra)) as A1.
  pose proof (MV _ _ _ _ _ _ _ _ _ (vx - s) vy (HA _ _ _ _ Hxm Hy Sxm Sy) Brx Bry Bdx Bdy ltac:(rewrite Z; lra)) as A2.
  pose proof (MV _ _ _ _ _ _ _ _ _ vx (vy + s) (HA _ _ _ _ Hx Hyp Sx Syp) Brx Bry Bdx Bdy ltac:(rewrite Z; lra)) as A3.
  pose proof (MV _ _ _ _ _ _ _ _ _ vx (vy - s) (HA _ _ _ _ Hx Hym Sx Sym) Brx Bry Bdx Bdy ltac:(rewrite Z; lra)) as A4.
  destruct (jacobian_double sky cos d2r x y step s c (eps + uro * P) _ _ _ _ _ _ _ _ Hs Bs ltac:(lra) A1 A2 A3 A4)
    as (n & j1 & j2 & j3 & j4 & v1 & v2 & v3 & v4 & J & V1 & V2 & V3 & V4 & G1 & G2 & G3 & G4).
  - replace (r0 + rx * (vx + s) + ry * vy - (r0 + rx * (vx - s) + ry * vy)) with (2 * rx * s) by ring. exact T1.
  - replace (r0 + rx * vx + ry * (vy + s) - (r0 + rx * vx + ry * (vy - s))) with (2 * ry * s) by ring. exact T2.
  - exact Hc.
  - exact Bc.
  - exists n, j1, j2, j3, j4, v1, v2, v3, v4. do 5 (split; [assumption|]).
    replace (- (3600 * rx * c)) with (1800 / s * (r0 + rx * (vx + s) + ry * vy - (r0 + rx * (vx - s) + ry * vy)) * - c) by (field; lra).
    replace (- (3600 * ry * c)) with (1800 / s * (r0 + rx * vx + ry * (vy + s) - (r0 + rx * vx + ry * (vy - s))) * - c) by (field; lra).
    replace (3600 * dx) with (1800 / s * (d0 + dx * (vx + s) + dy * vy - (d0 + dx * (vx - s) + dy * vy))) by (field; lra).
    replace (3600 * dy) with (1800 / s * (d0 + dx * vx + dy * (vy + s) - (d0 + dx * vx + dy * (vy - s)))) by (field; lra).
    auto.
Qed.

(** *** The residual of the inversion *)
Theorem residual_double (sky : f64 -> f64 -> f64 * f64) (x y : f64) (answer : f64 * f64) r d a b :
  f64_is (fst (sky x y)) r -> f64_is (snd (sky x y)) d -> f64_is (fst answer) a -> f64_is (snd answer) b ->
  Rabs r <= 720 -> Rabs a <= 720 -> Rabs d <= 90 -> Rabs b <= 90 ->
  exists n u v u' v',
    (forall m, (n <= m)%nat -> lonlatdiff sky m answer x y = Some (u, v)) /\
    f64_is u u' /\ f64_is v v' /\ wrapped (rnd (r - a)) u' /\ v' = rnd (d - b).
Proof.
  intros Hr Hd Ha Hb Sr Sa Sd Sb. pose proof big_80 as K. pose proof uro_fine as U. pose proof uro_pos as U0.
  assert (S1 : Rabs (r - a) <= 1440).
  { apply Rabs_le_inv in Sr. apply Rabs_le_inv in Sa. apply Rabs_le. lra. }
  assert (S2 : Rabs (d - b) <= 180).
  { apply Rabs_le_inv in Sd. apply Rabs_le_inv in Sb. apply Rabs_le. lra. }
  assert (Hx : f64_is (fsub (fst (sky x y)) (fst answer)) (rnd (r - a))) by (apply sub_is; try assumption; lra).
  assert (Sx : Rabs (rnd (r - a)) <= 1441).
  { eapply Rle_trans; [eapply near_size; [apply rnd_step, S1|exact S1]|]. nra. }
  assert (H56 : 1441 <= bpow radix2 56) by (change (bpow radix2 56) with (IZR (2 ^ 56)); apply IZR_le; lia).
  assert (H62 : bpow radix2 56 <= bpow radix2 62) by (apply bpow_le; lia).
  destruct (wrap_f64_terminates _ _ Hx ltac:(lra)) as (n & w & Hw).
  pose proof (wrap_f64_exact _ _ n Hx ltac:(lra)) as G. rewrite Hw in G.
  destruct (wrap_ra_diff n (rnd (r - a))) as [u'|] eqn:Ev; [|contradiction].
  exists n, w, (fsub (snd (sky x y)) (snd answer)), u', (rnd (d - b)). split.
  - intros m Hm. unfold lonlatdiff. destruct (sky x y) as [p q]. cbn [fst snd] in *.
    now rewrite (wrap_up _ _ _ Hw m Hm).
  - split; [exact G|]. split; [apply sub_is; try assumption; lra|]. split; [|reflexivity].
    apply wrap_exact_iff. eauto.
Qed.
