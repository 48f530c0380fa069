(** WCS lookup tables and pixel areas in double precision. *)
From Coq Require Import ZArith List Bool Lia Reals Lra SpecFloat.
From Flocq Require Import Core BinarySingleNaN.
From Coq Require Import List.
From Verif Require Import Lib.Base Lib.Floats Model.Affine Model.WcsGrid Spec.FloatSpec Spec.AffineSpec Spec.WcsGridSpec
  Proofs.BaseFacts Proofs.F64Facts Proofs.RoundSum Proofs.LanczosF64 Proofs.FwhmF64 Proofs.AffineF64 Proofs.SkyBoundsF64
  Proofs.WcsGridProofs.
Import ListNotations.
Open Scope R_scope.

#[local] Instance Hprec : Prec_gt_0 53 := eq_refl _.
#[local] Instance Hmax : Prec_lt_emax 53 1024 := eq_refl _.
#[local] Instance fexp64_valid : Valid_exp fexp64 := fexp_correct 53 1024 _.
#[local] Instance fexp64_mono : Monotone_exp fexp64 := fexp_monotone 53 1024.

(** The positions of the grid are exact. *)
Lemma node_is a : (Z.abs a <= 2 ^ 50)%Z -> f64_is (fsub (fofZ a) fhalf : f64) (IZR a - 1 / 2).
Proof.
  intros H. replace (IZR a - 1 / 2) with (rnd (IZR a - 1 / 2)).
  - apply sub_is; [apply f64_ofZ_is; lia|exact half_is|].
    unfold Rminus. eapply Rle_trans; [apply Rabs_triang|]. rewrite Rabs_Ropp, (Rabs_pos_eq (1 / 2)) by lra.
    pose proof (IZR_bound a 50 H ltac:(lia)). pose proof big_80. change (bpow radix2 50) with 1125899906842624 in *. lra.
  - replace (IZR a - 1 / 2) with (IZR (2 * a - 1) / 2) by (rewrite minus_IZR, mult_IZR; field).
    apply rnd_id, half_format. lia.
Qed.

(** The number of nodes from a rounded quotient. *)
Lemma size_is stop step : (0 <= stop <= 2 ^ 26)%Z -> (1 <= step <= 2 ^ 26)%Z ->
  @mgrid_size f64 _ stop step = Some (- ((- stop) / step))%Z.
Proof.
  intros Hs Hd. unfold mgrid_size.
  assert (Rd : 1 <= IZR step <= 67108864).
  { split; [apply (IZR_le 1); lia|]. change 67108864 with (IZR (2 ^ 26)). apply IZR_le. lia. }
  assert (Rs : 0 <= IZR stop <= 67108864).
  { split; [apply (IZR_le 0); lia|]. change 67108864 with (IZR (2 ^ 26)). apply IZR_le. lia. }
  set (n := (- ((- stop) / step))%Z).
  assert (Hn : (stop <= n * step)%Z /\ (n * step < stop + step)%Z).
  { unfold n. pose proof (Z.div_mod (- stop) step ltac:(lia)). pose proof (Z.mod_pos_bound (- stop) step ltac:(lia)). nia. }
  assert (Bn : (0 <= n <= 2 ^ 26)%Z) by nia.
  set (q := IZR stop / IZR step).
  assert (Eq : q * IZR step = IZR stop) by (unfold q; field; lra).
  assert (Q0 : 0 <= q <= 67108864).
  { split.
    - apply Rmult_le_reg_r with (IZR step); [lra|]. rewrite Eq. lra.
    - apply Rmult_le_reg_r with (IZR step); [lra|]. rewrite Eq. nra. }
  assert (H1 : f64_is (fdiv (fofZ stop : f64) (fofZ step)) (rnd q)).
  { apply div_is; [apply f64_ofZ_is; lia|apply f64_ofZ_is; lia|lra|]. fold q. rewrite Rabs_pos_eq by lra.
    pose proof big_80. lra. }
  assert (Up : rnd q <= IZR n).
  { rewrite <- (rnd_id (IZR n)) by (apply fmtZ; lia). apply round_le; [typeclasses eauto..|].
    apply Rmult_le_reg_r with (IZR step); [lra|]. rewrite Eq, <- mult_IZR. apply IZR_le. lia. }
  assert (Lo : IZR n - 1 + / 67108864 <= rnd q).
  { assert (FM : generic_format radix2 fexp64 (IZR n - 1 + / 67108864)).
    { replace (IZR n - 1 + / 67108864) with (F2R (Float radix2 ((n - 1) * 67108864 + 1) (-26))).
      - apply generic_format_FLT. exists (Float radix2 ((n - 1) * 67108864 + 1) (-26)); [reflexivity| |cbn; lia].
        cbn [Fnum]. change (2 ^ 26)%Z with 67108864%Z in Bn. change (radix2 ^ 53)%Z with (9007199254740992)%Z. lia.
      - unfold F2R. cbn [Fnum Fexp]. change (bpow radix2 (-26)) with (/ 67108864).
        rewrite plus_IZR, mult_IZR, minus_IZR. field. }
    rewrite <- (rnd_id _ FM). apply round_le; [typeclasses eauto..|].
    apply Rmult_le_reg_r with (IZR step); [lra|]. rewrite Eq.
    assert (IZR (n * step) + 1 <= IZR (stop + step)) by (rewrite <- plus_IZR; apply IZR_le; lia).
    rewrite mult_IZR, plus_IZR in H. nra. }
  assert (N0 : 0 <= IZR n <= 67108864).
  { split; [apply (IZR_le 0); lia|]. change 67108864 with (IZR (2 ^ 26)). apply IZR_le. lia. }
  assert (H2 : f64_is (fneg (fdiv (fofZ stop : f64) (fofZ step))) (- rnd q)).
  { replace (- rnd q) with (rnd (0 - rnd q)).
    - apply sub_is; [apply (f64_ofZ_is 0); lia|exact H1|]. rewrite Rminus_0_l, Rabs_Ropp.
      pose proof big_80. apply Rabs_le. lra.
    - rewrite Rminus_0_l. apply rnd_id, generic_format_opp, (fmt_of _ _ H1). }
  change (@ffloor f64 F64Ops) with f64_floor. rewrite (f64_floor_is _ _ H2). cbn [option_map].
  f_equal. enough (Zfloor (- rnd q) = (- n)%Z) by lia. apply Zfloor_imp. rewrite plus_IZR, opp_IZR. lra.
Qed.

(** ** The area of a pixel of an affine WCS *)
Section Area.
Variables (map : f64 -> f64 -> f64 * f64) (x y : f64) (va vb ku vc vd kv vx vy M P Q : R).
Hypothesis Ba : Rabs va <= M. Hypothesis Bb : Rabs vb <= M. Hypothesis Bc : Rabs vc <= M. Hypothesis Bd : Rabs vd <= M.
Hypothesis N : forall X Y x y, f64_is X x -> f64_is Y y -> Rabs x <= Q -> Rabs y <= Q ->
  exists u v, f64_is (fst (map X Y)) u /\ f64_is (snd (map X Y)) v /\
    Rabs (u - (va * x + vb * y + ku)) <= 14.1 * (uro * (M * P)) /\
    Rabs (v - (vc * x + vd * y + kv)) <= 14.1 * (uro * (M * P)) /\ Rabs u <= 5 * (M * P) /\ Rabs v <= 5 * (M * P).
Hypothesis Hx : f64_is x vx. Hypothesis Hy : f64_is y vy.
Hypothesis Bx : Rabs vx <= Q - 2. Hypothesis By : Rabs vy <= Q - 2. Hypothesis QP : Q <= P.
Hypothesis RM' : / 1048576 <= M <= 1048576. Hypothesis RP' : 1 <= P <= 1073741824.

Lemma plus_one z v : f64_is z v -> Rabs v <= Q - 2 ->
  (exists s, f64_is (fadd z (fofZ 1)) s /\ Rabs (s - (v + 1)) <= uro * P /\ Rabs s <= Q) /\
  (exists s, f64_is (fsub z (fofZ 1)) s /\ Rabs (s - (v - 1)) <= uro * P /\ Rabs s <= Q).
Proof.
  intros Hz Bz. pose proof uro_fine as U. pose proof uro_pos as U0. pose proof big_80 as K.
  assert (O : f64_is (fofZ 1 : f64) 1) by exact one_is.
  assert (O1 : Rabs 1 <= 1) by (rewrite Rabs_R1; lra).
  assert (uP : uro * P <= / 1000000 * P) by (apply Rmult_le_compat_r; lra).
  assert (FP : uro * P <= 1).
  { eapply Rle_trans; [apply Rmult_le_compat; [lra|lra|exact U|apply RP']|]. lra. }
  assert (T : uro * (Q - 2 + 0 + (1 + 0) + uro) <= uro * P) by (apply Rmult_le_compat_l; lra).
  split.
  - destruct (add_step z (fofZ 1) v v (Q - 2) 0 1 1 1 0 Hz (exact_step _) Bz O (exact_step _) O1 ltac:(lra)) as (s & Hs & E).
    exists s. split; [exact Hs|]. split; [lra|].
    replace s with (v + 1 + (s - (v + 1))) by ring. pose proof (Rabs_triang v 1).
    eapply Rle_trans; [apply Rabs_triang|]. lra.
  - destruct (sub_step z (fofZ 1) v v (Q - 2) 0 1 1 1 0 Hz (exact_step _) Bz O (exact_step _) O1 ltac:(lra)) as (s & Hs & E).
    exists s. split; [exact Hs|]. split; [lra|].
    apply Rabs_le_inv in Bz. apply Rabs_le_inv in E. apply Rabs_le. lra.
Qed.

(** A central difference. *)
Lemma central (p q : f64) p' q' g f : f64_is p p' -> f64_is q q' ->
  Rabs (p' - (f + g)) <= 15.1 * (uro * (M * P)) -> Rabs (q' - (f - g)) <= 15.1 * (uro * (M * P)) ->
  Rabs p' <= 5 * (M * P) -> Rabs q' <= 5 * (M * P) -> Rabs g <= M ->
  exists z, f64_is (fdiv (fmul fhalf (fsub p q)) (fofZ 1)) z /\ Rabs (z - g) <= 19 * (uro * (M * P)).
Proof.
  intros Hp Hq Ep Eq Sp Sq Bg. pose proof uro_fine as U. pose proof uro_pos as U0. pose proof big_80 as K.
  
  assert (W0 : / 1048576 <= M * P <= 1048576 * 1073741824) by (split; nra).
  assert (W1 : 0 <= uro * (M * P)) by (apply Rmult_le_pos; lra).
  assert (W2 : uro * uro <= / 8589934592 * (uro * (M * P))).
  { replace (/ 8589934592 * (uro * (M * P))) with (uro * (/ 8589934592 * (M * P))) by ring. apply Rmult_le_compat_l; lra. }
  assert (W3 : uro * (M * P) <= / 1000000 * (M * P)) by (apply Rmult_le_compat_r; lra).
  assert (W4 : M <= M * P) by nra.
  set (r := rnd (p' - q')).
  assert (D2 : Rabs (p' - q') <= 3 * (M * P)).
  { replace (p' - q') with ((p' - (f + g)) + - (q' - (f - g)) + 2 * g) by ring.
    eapply Rle_trans; [apply Rabs_triang|]. rewrite (Rabs_mult 2), (Rabs_pos_eq 2) by lra.
    pose proof (Rabs_triang (p' - (f + g)) (- (q' - (f - g)))). rewrite Rabs_Ropp in H. lra. }
  assert (H1 : f64_is (fsub p q) r) by (apply sub_is; try assumption; lra).
  assert (E1 : Rabs (r - (p' - q')) <= uro * (3 * (M * P) + uro)) by now apply rnd_step.
  assert (S1 : Rabs r <= 3.1 * (M * P)).
  { eapply Rle_trans; [eapply near_size; [exact E1|exact D2]|]. lra. }
  assert (H2 : f64_is (fmul fhalf (fsub p q)) (rnd (1 / 2 * r))).
  { apply mul_is; [exact half_is|exact H1|]. rewrite Rabs_mult, (Rabs_pos_eq (1 / 2)) by lra. lra. }
  set (h := rnd (1 / 2 * r)) in *.
  assert (E2 : Rabs (h - 1 / 2 * r) <= uro * (1.55 * (M * P) + uro)).
  { apply rnd_step. rewrite Rabs_mult, (Rabs_pos_eq (1 / 2)) by lra. lra. }
  exists h. split.
  - assert (D1 : forall t, t / 1 = t) by (intros; field).
    assert (Fh : rnd (h / 1) = h) by (rewrite D1; apply rnd_id, (fmt_of _ _ H2)).
    rewrite <- Fh. apply div_is; [exact H2|exact one_is|lra|]. rewrite D1.
    assert (Rabs h <= 1.55 * (M * P) + uro * (1.55 * (M * P) + uro)).
    { eapply near_size; [exact E2|]. rewrite Rabs_mult, (Rabs_pos_eq (1 / 2)) by lra. lra. }
    lra.
  - replace (h - g) with ((h - 1 / 2 * r) + 1 / 2 * (r - (p' - q')) + 1 / 2 * ((p' - (f + g)) - (q' - (f - g)))) by field.
    apply Rabs_le_inv in Ep. apply Rabs_le_inv in Eq. apply Rabs_le_inv in E1. apply Rabs_le_inv in E2.
    apply Rabs_le. lra.
Qed.

Lemma area_is cos d2r fuel : exists A v, compute_wcs_area (map) false cos d2r fuel x y (fofZ 1) = Some A /\
  f64_is A v /\ Rabs (v - Rabs (va * vd - vb * vc)) <= 128 * (uro * (M * M * P)).
Proof.
  pose proof uro_fine as U. pose proof uro_pos as U0. pose proof big_80 as K.
  
  assert (W0 : / 1048576 <= M * P <= 1048576 * 1073741824) by (split; nra).
  assert (W1 : 0 <= uro * (M * P)) by (apply Rmult_le_pos; lra).
  destruct (plus_one x vx Hx Bx) as [(xp & Hxp & Exp & Sxp) (xm & Hxm & Exm & Sxm)].
  destruct (plus_one y vy Hy By) as [(yp & Hyp & Eyp & Syp) (ym & Hym & Eym & Sym)].
  assert (Sx : Rabs vx <= Q) by lra. assert (Sy : Rabs vy <= Q) by lra.
  destruct (N _ _ _ _ Hxp Hy Sxp Sy) as (u1 & v1 & A1 & A2 & A3 & A4 & A5 & A6).
  destruct (N _ _ _ _ Hxm Hy Sxm Sy) as (u2 & v2 & B1 & B2 & B3 & B4 & B5 & B6).
  destruct (N _ _ _ _ Hx Hyp Sx Syp) as (u3 & v3 & C1 & C2 & C3 & C4 & C5 & C6).
  destruct (N _ _ _ _ Hx Hym Sx Sym) as (u4 & v4 & D1 & D2 & D3 & D4 & D5 & D6).
  unfold compute_wcs_area. destruct (map x y) as [r0 e0].
  destruct (map (fadd x (fofZ 1)) y) as [r1 e1]. destruct (map (fsub x (fofZ 1)) y) as [r2 e2].
  destruct (map x (fadd y (fofZ 1))) as [r3 e3]. destruct (map x (fsub y (fofZ 1))) as [r4 e4].
  cbn [fst snd] in *.
  assert (MOVE : forall u g s t rest, Rabs (u - (g * s + rest)) <= 14.1 * (uro * (M * P)) -> Rabs g <= M -> Rabs (s - t) <= uro * P ->
    Rabs (u - (g * t + rest)) <= 15.1 * (uro * (M * P))).
  { intros u g s t rest E Bg Es.
    replace (u - (g * t + rest)) with ((u - (g * s + rest)) + g * (s - t)) by ring.
    eapply Rle_trans; [apply Rabs_triang|]. rewrite Rabs_mult.
    assert (Rabs g * Rabs (s - t) <= M * (uro * P)) by (apply Rmult_le_compat; try apply Rabs_pos; assumption). lra. }
  assert (G1 : exists z, f64_is (fdiv (fmul fhalf (fsub r1 r2)) (fofZ 1)) z /\ Rabs (z - va) <= 19 * (uro * (M * P))).
  { apply (central r1 r2 u1 u2 va (va * vx + vb * vy + ku)); try assumption.
    - replace (va * vx + vb * vy + ku + va) with (va * (vx + 1) + (vb * vy + ku)) by ring.
      apply (MOVE _ _ xp); try assumption. rewrite <- Rplus_assoc. exact A3.
    - replace (va * vx + vb * vy + ku - va) with (va * (vx - 1) + (vb * vy + ku)) by ring.
      apply (MOVE _ _ xm); try assumption. rewrite <- Rplus_assoc. exact B3. }
  assert (G2 : exists z, f64_is (fdiv (fmul fhalf (fsub r3 r4)) (fofZ 1)) z /\ Rabs (z - vb) <= 19 * (uro * (M * P))).
  { apply (central r3 r4 u3 u4 vb (va * vx + vb * vy + ku)); try assumption.
    - replace (va * vx + vb * vy + ku + vb) with (vb * (vy + 1) + (va * vx + ku)) by ring.
      apply (MOVE _ _ yp); try assumption. replace (vb * yp + (va * vx + ku)) with (va * vx + vb * yp + ku) by ring. exact C3.
    - replace (va * vx + vb * vy + ku - vb) with (vb * (vy - 1) + (va * vx + ku)) by ring.
      apply (MOVE _ _ ym); try assumption. replace (vb * ym + (va * vx + ku)) with (va * vx + vb * ym + ku) by ring. exact D3. }
  assert (G3 : exists z, f64_is (fdiv (fmul fhalf (fsub e1 e2)) (fofZ 1)) z /\ Rabs (z - vc) <= 19 * (uro * (M * P))).
  { apply (central e1 e2 v1 v2 vc (vc * vx + vd * vy + kv)); try assumption.
    - replace (vc * vx + vd * vy + kv + vc) with (vc * (vx + 1) + (vd * vy + kv)) by ring.
      apply (MOVE _ _ xp); try assumption. rewrite <- Rplus_assoc. exact A4.
    - replace (vc * vx + vd * vy + kv - vc) with (vc * (vx - 1) + (vd * vy + kv)) by ring.
      apply (MOVE _ _ xm); try assumption. rewrite <- Rplus_assoc. exact B4. }
  assert (G4 : exists z, f64_is (fdiv (fmul fhalf (fsub e3 e4)) (fofZ 1)) z /\ Rabs (z - vd) <= 19 * (uro * (M * P))).
  { apply (central e3 e4 v3 v4 vd (vc * vx + vd * vy + kv)); try assumption.
    - replace (vc * vx + vd * vy + kv + vd) with (vd * (vy + 1) + (vc * vx + kv)) by ring.
      apply (MOVE _ _ yp); try assumption. replace (vd * yp + (vc * vx + kv)) with (vc * vx + vd * yp + kv) by ring. exact C4.
    - replace (vc * vx + vd * vy + kv - vd) with (vd * (vy - 1) + (vc * vx + kv)) by ring.
      apply (MOVE _ _ ym); try assumption. replace (vd * ym + (vc * vx + kv)) with (vc * vx + vd * ym + kv) by ring. exact D4. }
  clear A1 A2 A3 A4 A5 A6 B1 B2 B3 B4 B5 B6 C1 C2 C3 C4 C5 C6 D1 D2 D3 D4 D5 D6 MOVE.
  destruct G1 as (a' & Ha' & Ea). destruct G2 as (b' & Hb' & Eb). destruct G3 as (c' & Hc' & Ec). destruct G4 as (d' & Hd' & Ed).
  set (fa := fdiv (fmul fhalf (fsub r1 r2)) (fofZ 1)) in *. set (fb := fdiv (fmul fhalf (fsub r3 r4)) (fofZ 1)) in *.
  set (fc := fdiv (fmul fhalf (fsub e1 e2)) (fofZ 1)) in *. set (fd := fdiv (fmul fhalf (fsub e3 e4)) (fofZ 1)) in *.
  clearbody fa fb fc fd.
  set (e := 19 * (uro * (M * P))) in *.
  assert (Re : 0 <= e <= / 1000 * M).
  { unfold e. split; [lra|]. assert (uro * (M * P) <= / 9007199254740992 * (M * 1073741824)).
    { apply Rmult_le_compat; try lra. apply Rmult_le_compat_l; lra. } lra. }
  assert (Me : M * e = 19 * (uro * (M * M * P))) by (unfold e; ring).
  assert (V0 : uro * (M * M) <= uro * (M * M * P)).
  { apply Rmult_le_compat_l; [lra|]. rewrite <- (Rmult_1_r (M * M)) at 1. apply Rmult_le_compat_l; [apply Rmult_le_pos; lra|lra]. }
  assert (V1 : 0 <= uro * (M * M)) by (apply Rmult_le_pos; [lra|apply Rmult_le_pos; lra]).
  assert (V2 : / 1099511627776 <= M * M <= 1099511627776) by (split; nra).
  assert (V3 : uro <= / 1000 * (M * M)) by lra.
  assert (V4 : uro * uro <= / 1000 * (uro * (M * M))).
  { replace (/ 1000 * (uro * (M * M))) with (uro * (/ 1000 * (M * M))) by ring. apply Rmult_le_compat_l; lra. }
  (* a product *)
  assert (PR : forall (f g : f64) f' g' vf vg, f64_is f f' -> f64_is g g' -> Rabs (f' - vf) <= e -> Rabs (g' - vg) <= e ->
    Rabs vf <= M -> Rabs vg <= M ->
    exists z, f64_is (fmul f g) z /\ Rabs (z - vf * vg) <= 2.001 * (M * e) + 1.01 * (uro * (M * M)) /\ Rabs (vf * vg) <= M * M).
  { intros f g f' g' vf vg Hf Hg Ef Eg Bf Bg. 
    assert (Sf : Rabs f' <= M + e) by (eapply near_size; eassumption).
    destruct (mul_step f g f' (M + e) vg g' M e Hf Sf Hg Eg Bg) as (z & Hz & Ez).
    { assert ((M + e) * (M + e) <= 1.01 * M * (1.01 * M)) by (apply Rmult_le_compat; lra). lra. }
    exists z. split; [exact Hz|].
    assert (X1 : Rabs (vf * vg) <= M * M) by (rewrite Rabs_mult; apply Rmult_le_compat; try apply Rabs_pos; assumption).
    split; [|exact X1].
    replace (z - vf * vg) with ((z - f' * vg) + (f' - vf) * vg) by ring. eapply Rle_trans; [apply Rabs_triang|].
    rewrite (Rabs_mult (f' - vf)).
    assert (X2 : Rabs (f' - vf) * Rabs vg <= e * M) by (apply Rmult_le_compat; try apply Rabs_pos; assumption).
    assert (X3 : e * e <= / 1000 * M * e) by (apply Rmult_le_compat_r; lra).
    assert (X4 : (M + e) * (M + e) + uro <= 1.01 * (M * M)).
    { assert ((M + e) * (M + e) <= 1.001 * M * (1.001 * M)) by (apply Rmult_le_compat; lra). lra. }
    assert (X5 : uro * ((M + e) * (M + e) + uro) <= uro * (1.01 * (M * M))) by (apply Rmult_le_compat_l; lra).
    lra. }
  destruct (PR fa fd a' d' va vd Ha' Hd' Ea Ed Ba Bd) as (z1 & Z1 & F1 & S1).
  destruct (PR fc fb c' b' vc vb Hc' Hb' Ec Eb Bc Bb) as (z2 & Z2 & F2 & S2).
  assert (Me2 : M * e <= / 1000 * (M * M)).
  { replace (/ 1000 * (M * M)) with (M * (/ 1000 * M)) by ring. apply Rmult_le_compat_l; lra. }
  assert (V5 : uro * (M * M) <= / 1000 * (M * M)) by (apply Rmult_le_compat_r; lra).
  destruct (sub_step _ _ _ _ _ _ _ _ _ _ Z1 F1 S1 Z2 F2 S2 ltac:(lra)) as (z & Hz & Fz).
  exists (fabs (fsub (fmul fa fd) (fmul fc fb))), (Rabs z). split; [reflexivity|]. split; [exact (abs_is _ _ Hz)|].
  assert (Y1 : uro * (M * M + (2.001 * (M * e) + 1.01 * (uro * (M * M))) + (M * M + (2.001 * (M * e) + 1.01 * (uro * (M * M)))) + uro)
    <= uro * (2.01 * (M * M))) by (apply Rmult_le_compat_l; lra).
  eapply Rle_trans; [apply Rabs_triang_inv2|].
  replace (va * vd - vb * vc) with (va * vd - vc * vb) by ring. lra.
Qed.
End Area.
