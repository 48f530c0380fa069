(** The affine WCS in double precision. *)
From Coq Require Import ZArith List Bool Lia Reals Lra SpecFloat.
From Flocq Require Import Core BinarySingleNaN.
From Coq Require Import List.
From Verif Require Import Lib.Base Lib.Floats Model.Affine Spec.FloatSpec Spec.AffineSpec
  Proofs.BaseFacts Proofs.F64Facts Proofs.RoundSum Proofs.LanczosF64 Proofs.FwhmF64.
Import ListNotations.
Open Scope R_scope.

(** ** Operations on numbers that are nearly known *)
Lemma rnd_step x B : Rabs x <= B -> Rabs (rnd x - x) <= uro * (B + uro).
Proof.
  intros H. eapply Rle_trans; [apply rnd_abs|]. apply Rmult_le_compat_l; [pose proof uro_pos; lra|].
  apply Rplus_le_compat_r, H.
Qed.

Lemma near_size v v' V e : Rabs (v' - v) <= e -> Rabs v <= V -> Rabs v' <= V + e.
Proof.
  intros H1 H2. replace v' with (v + (v' - v)) by ring. eapply Rle_trans; [apply Rabs_triang|]. lra.
Qed.

Lemma mul_step (x y : f64) w M v v' V e : f64_is x w -> Rabs w <= M -> f64_is y v' -> Rabs (v' - v) <= e ->
  Rabs v <= V -> M * (V + e) <= bpow radix2 1000 ->
  exists z, f64_is (fmul x y) z /\ Rabs (z - w * v) <= M * e + uro * (M * (V + e) + uro).
Proof.
  intros Hx Bw Hy E Bv B. pose proof (near_size _ _ _ _ E Bv) as S.
  assert (P : Rabs (w * v') <= M * (V + e)) by (rewrite Rabs_mult; apply Rmult_le_compat; try apply Rabs_pos; assumption).
  exists (rnd (w * v')). split; [apply mul_is; try assumption; lra|].
  replace (rnd (w * v') - w * v) with (w * (v' - v) + (rnd (w * v') - w * v')) by ring.
  eapply Rle_trans; [apply Rabs_triang|]. apply Rplus_le_compat; [|now apply rnd_step].
  rewrite Rabs_mult. apply Rmult_le_compat; try apply Rabs_pos; assumption.
Qed.

Lemma add_step (x y : f64) a a' A e b b' B f : f64_is x a' -> Rabs (a' - a) <= e -> Rabs a <= A ->
  f64_is y b' -> Rabs (b' - b) <= f -> Rabs b <= B -> A + e + (B + f) <= bpow radix2 1000 ->
  exists z, f64_is (fadd x y) z /\ Rabs (z - (a + b)) <= e + f + uro * (A + e + (B + f) + uro).
Proof.
  intros Hx E Ba Hy F Bb K. pose proof (near_size _ _ _ _ E Ba) as S1. pose proof (near_size _ _ _ _ F Bb) as S2.
  assert (P : Rabs (a' + b') <= A + e + (B + f)) by (eapply Rle_trans; [apply Rabs_triang|]; lra).
  exists (rnd (a' + b')). split; [apply add_is; try assumption; lra|].
  replace (rnd (a' + b') - (a + b)) with ((a' - a) + (b' - b) + (rnd (a' + b') - (a' + b'))) by ring.
  eapply Rle_trans; [apply Rabs_triang|]. apply Rplus_le_compat; [|now apply rnd_step].
  eapply Rle_trans; [apply Rabs_triang|]. lra.
Qed.

Lemma sub_step (x y : f64) a a' A e b b' B f : f64_is x a' -> Rabs (a' - a) <= e -> Rabs a <= A ->
  f64_is y b' -> Rabs (b' - b) <= f -> Rabs b <= B -> A + e + (B + f) <= bpow radix2 1000 ->
  exists z, f64_is (fsub x y) z /\ Rabs (z - (a - b)) <= e + f + uro * (A + e + (B + f) + uro).
Proof.
  intros Hx E Ba Hy F Bb K. pose proof (near_size _ _ _ _ E Ba) as S1. pose proof (near_size _ _ _ _ F Bb) as S2.
  assert (P : Rabs (a' - b') <= A + e + (B + f)).
  { unfold Rminus. eapply Rle_trans; [apply Rabs_triang|]. rewrite Rabs_Ropp. lra. }
  exists (rnd (a' - b')). split; [apply sub_is; try assumption; lra|].
  replace (rnd (a' - b') - (a - b)) with ((a' - a) + - (b' - b) + (rnd (a' - b') - (a' - b'))) by ring.
  eapply Rle_trans; [apply Rabs_triang|]. apply Rplus_le_compat; [|now apply rnd_step].
  eapply Rle_trans; [apply Rabs_triang|]. rewrite Rabs_Ropp. lra.
Qed.

Lemma div_step (x y : f64) q Q n' e D D' f : f64_is x n' -> Rabs (n' - D * q) <= e -> Rabs q <= Q ->
  f64_is y D' -> Rabs (D' - D) <= f -> f < Rabs D -> Q + (e + f * Q) / (Rabs D - f) <= bpow radix2 1000 ->
  exists z, f64_is (fdiv x y) z /\
    Rabs (z - q) <= (e + f * Q) / (Rabs D - f) + uro * (Q + (e + f * Q) / (Rabs D - f) + uro).
Proof.
  intros Hx E Bq Hy F L K. set (g := (e + f * Q) / (Rabs D - f)) in *.
  assert (SD : Rabs D - f <= Rabs D').
  { replace D with (D' + - (D' - D)) by ring. pose proof (Rabs_triang D' (- (D' - D))) as T.
    rewrite Rabs_Ropp in T. lra. }
  assert (ND : D' <> 0) by (intros ->; rewrite Rabs_R0 in SD; lra).
  assert (G : Rabs (n' / D' - q) <= g).
  { replace (n' / D' - q) with ((n' - D * q - (D' - D) * q) * / D') by (field; exact ND).
    rewrite Rabs_mult, Rabs_inv. unfold g, Rdiv.
    apply Rmult_le_compat; [apply Rabs_pos|apply Rlt_le, Rinv_0_lt_compat; lra| |apply Rinv_le; lra].
    unfold Rminus at 1. eapply Rle_trans; [apply Rabs_triang|]. rewrite Rabs_Ropp, Rabs_mult.
    apply Rplus_le_compat; [exact E|]. apply Rmult_le_compat; try apply Rabs_pos; assumption. }
  pose proof (near_size _ _ _ _ G Bq) as S. exists (rnd (n' / D')).
  split; [apply div_is; try assumption; lra|].
  replace (rnd (n' / D') - q) with ((n' / D' - q) + (rnd (n' / D') - n' / D')) by ring.
  eapply Rle_trans; [apply Rabs_triang|]. apply Rplus_le_compat; [exact G|]. now apply rnd_step.
Qed.

Lemma big_80 : 1208925819614629174706176 <= bpow radix2 1000.
Proof. apply Rle_trans with (bpow radix2 80); [right; reflexivity|apply bpow_le; lia]. Qed.

Lemma exact_step v : Rabs (v - v) <= 0.
Proof. rewrite Rminus_diag_eq, Rabs_R0 by reflexivity. lra. Qed.

(** ** The two maps *)
Section Maps.
Variables (a b c d px py x y : f64) (va vb vc vd vpx vpy vx vy M P : R).
Hypothesis Ha : f64_is a va. Hypothesis Hb : f64_is b vb. Hypothesis Hc : f64_is c vc. Hypothesis Hd : f64_is d vd.
Hypothesis Hpx : f64_is px vpx. Hypothesis Hpy : f64_is py vpy. Hypothesis Hx : f64_is x vx. Hypothesis Hy : f64_is y vy.
Hypothesis Ba : Rabs va <= M. Hypothesis Bb : Rabs vb <= M. Hypothesis Bc : Rabs vc <= M. Hypothesis Bd : Rabs vd <= M.
Hypothesis Bpx : Rabs vpx <= P. Hypothesis Bpy : Rabs vpy <= P. Hypothesis Bx : Rabs vx <= P. Hypothesis By : Rabs vy <= P.
Hypothesis RM : / 1048576 <= M <= 1048576.
Hypothesis RP : 1 <= P <= 1073741824.

Let W1 := M * P.
Let W2 := M * M * P.

Lemma W1_range : / 1048576 <= W1 <= 1125899906842624.
Proof. unfold W1. split; nra. Qed.
Lemma W2_range : / 1099511627776 <= W2 <= 1180591620717411303424.
Proof. unfold W2. assert (/ 1099511627776 <= M * M <= 1099511627776) by (split; nra). split; nra. Qed.
Lemma uro_fine : uro <= / 9007199254740992.
Proof. unfold uro. right. reflexivity. Qed.

Lemma diff_step (p q : f64) vp vq : f64_is p vp -> f64_is q vq -> Rabs vp <= P -> Rabs vq <= P ->
  exists z, f64_is (fsub p q) z /\ Rabs (z - (vp - vq)) <= 2.001 * (uro * P).
Proof.
  intros Hp Hq Bp Bq. pose proof uro_fine as U. pose proof uro_pos as U0. pose proof big_80 as K.
  assert (Q1 : 0 <= uro * W1) by (pose proof W1_range; apply Rmult_le_pos; lra).
  assert (Q2 : 0 <= uro * W2) by (pose proof W2_range; apply Rmult_le_pos; lra).
  assert (Q3 : 0 <= uro * P) by (apply Rmult_le_pos; lra).
  assert (Q4 : 0 <= uro * (M * M)) by (apply Rmult_le_pos; [lra|apply Rmult_le_pos; lra]).
  destruct (sub_step p q vp vp P 0 vq vq P 0 Hp (exact_step _) Bp Hq (exact_step _) Bq ltac:(lra)) as (z & Hz & E).
  exists z. split; [exact Hz|]. eapply Rle_trans; [exact E|].
  assert (uro * (P + 0 + (P + 0) + uro) <= uro * (2.001 * P)) by (apply Rmult_le_compat_l; lra). lra.
Qed.

(** A combination of two differences. *)
Lemma comb_step (g h p q : f64) vg vh X Y X' Y' : f64_is g vg -> f64_is h vh -> Rabs vg <= M -> Rabs vh <= M ->
  f64_is p X' -> Rabs (X' - X) <= 2.001 * (uro * P) -> Rabs X <= 2 * P ->
  f64_is q Y' -> Rabs (Y' - Y) <= 2.001 * (uro * P) -> Rabs Y <= 2 * P ->
  exists z, f64_is (fadd (fmul g p) (fmul h q)) z /\ Rabs (z - (vg * X + vh * Y)) <= 12.1 * (uro * W1).
Proof.
  intros Hg Hh Bg Bh Hp Ep Bp Hq Eq Bq. pose proof uro_fine as U. pose proof uro_pos as U0. pose proof big_80 as K.
  assert (Q1 : 0 <= uro * W1) by (pose proof W1_range; apply Rmult_le_pos; lra).
  assert (Q2 : 0 <= uro * W2) by (pose proof W2_range; apply Rmult_le_pos; lra).
  assert (Q3 : 0 <= uro * P) by (apply Rmult_le_pos; lra).
  assert (Q4 : 0 <= uro * (M * M)) by (apply Rmult_le_pos; [lra|apply Rmult_le_pos; lra]).
  pose proof W1_range as RW.
  assert (uP : uro * P <= / 1000 * P) by (apply Rmult_le_compat_r; lra).
  assert (MS : M * (2 * P + 2.001 * (uro * P)) <= 2.01 * W1).
  { unfold W1. replace (2.01 * (M * P)) with (M * (2.01 * P)) by ring. apply Rmult_le_compat_l; lra. }
  assert (E1 : M * (2.001 * (uro * P)) + uro * (M * (2 * P + 2.001 * (uro * P)) + uro) <= 4.02 * (uro * W1)).
  { replace (M * (2.001 * (uro * P))) with (2.001 * (uro * W1)) by (unfold W1; ring).
    assert (uro * (M * (2 * P + 2.001 * (uro * P)) + uro) <= uro * (2.011 * W1)) by (apply Rmult_le_compat_l; lra). lra. }
  destruct (mul_step g p vg M X X' _ _ Hg Bg Hp Ep Bp ltac:(lra)) as (z1 & Z1 & F1).
  destruct (mul_step h q vh M Y Y' _ _ Hh Bh Hq Eq Bq ltac:(lra)) as (z2 & Z2 & F2).
  assert (S1 : Rabs (vg * X) <= 2 * W1).
  { rewrite Rabs_mult. replace (2 * W1) with (M * (2 * P)) by (unfold W1; ring). apply Rmult_le_compat; try apply Rabs_pos; assumption. }
  assert (S2 : Rabs (vh * Y) <= 2 * W1).
  { rewrite Rabs_mult. replace (2 * W1) with (M * (2 * P)) by (unfold W1; ring). apply Rmult_le_compat; try apply Rabs_pos; assumption. }
  assert (uW : uro * W1 <= / 1000000 * W1) by (apply Rmult_le_compat_r; lra).
  destruct (add_step _ _ _ _ _ _ _ _ _ _ Z1 (Rle_trans _ _ _ F1 E1) S1 Z2 (Rle_trans _ _ _ F2 E1) S2 ltac:(lra))
    as (z & Hz & F). exists z. split; [exact Hz|]. eapply Rle_trans; [exact F|].
  assert (uro * (2 * W1 + 4.02 * (uro * W1) + (2 * W1 + 4.02 * (uro * W1)) + uro) <= uro * (4.01 * W1))
    by (apply Rmult_le_compat_l; lra).
  lra.
Qed.

Lemma image2sky_step dt : exists u v, let '(U, V) := image2sky (mk_affine a b c d px py dt) x y in
  f64_is U u /\ f64_is V v /\
  Rabs (u - (va * (vx - vpx) + vb * (vy - vpy))) <= 12.1 * (uro * W1) /\
  Rabs (v - (vc * (vx - vpx) + vd * (vy - vpy))) <= 12.1 * (uro * W1).
Proof.
  destruct (diff_step x px _ _ Hx Hpx Bx Bpx) as (X & HX & EX).
  destruct (diff_step y py _ _ Hy Hpy By Bpy) as (Y & HY & EY).
  assert (SX : Rabs (vx - vpx) <= 2 * P).
  { unfold Rminus. eapply Rle_trans; [apply Rabs_triang|]. rewrite Rabs_Ropp. lra. }
  assert (SY : Rabs (vy - vpy) <= 2 * P).
  { unfold Rminus. eapply Rle_trans; [apply Rabs_triang|]. rewrite Rabs_Ropp. lra. }
  destruct (comb_step a b _ _ va vb _ _ _ _ Ha Hb Ba Bb HX EX SX HY EY SY) as (u & Hu & Eu).
  destruct (comb_step c d _ _ vc vd _ _ _ _ Hc Hd Bc Bd HX EX SX HY EY SY) as (v & Hv & Ev).
  exists u, v. unfold image2sky. cbn [dudx dudy dvdx dvdy x0 y0]. split; [exact Hu|]. split; [exact Hv|]. split; assumption.
Qed.

Lemma det_step : exists D', f64_is (fsub (fmul a d) (fmul c b)) D' /\
  Rabs (D' - (va * vd - vb * vc)) <= 4.01 * (uro * (M * M)).
Proof.
  pose proof uro_fine as U. pose proof uro_pos as U0. pose proof big_80 as K.
  assert (Q1 : 0 <= uro * W1) by (pose proof W1_range; apply Rmult_le_pos; lra).
  assert (Q2 : 0 <= uro * W2) by (pose proof W2_range; apply Rmult_le_pos; lra).
  assert (Q3 : 0 <= uro * P) by (apply Rmult_le_pos; lra).
  assert (Q4 : 0 <= uro * (M * M)) by (apply Rmult_le_pos; [lra|apply Rmult_le_pos; lra]).
  assert (R2 : / 1099511627776 <= M * M <= 1099511627776) by (split; nra).
  assert (E1 : M * 0 + uro * (M * (M + 0) + uro) <= 1.001 * (uro * (M * M))).
  { rewrite Rmult_0_r, Rplus_0_l, Rplus_0_r.
    assert (uro * (M * M + uro) <= uro * (1.001 * (M * M))) by (apply Rmult_le_compat_l; lra). lra. }
  destruct (mul_step a d va M vd vd M 0 Ha Ba Hd (exact_step _) Bd ltac:(lra)) as (z1 & Z1 & F1).
  destruct (mul_step c b vc M vb vb M 0 Hc Bc Hb (exact_step _) Bb ltac:(lra)) as (z2 & Z2 & F2).
  assert (S1 : Rabs (va * vd) <= M * M) by (rewrite Rabs_mult; apply Rmult_le_compat; try apply Rabs_pos; assumption).
  assert (S2 : Rabs (vc * vb) <= M * M) by (rewrite Rabs_mult; apply Rmult_le_compat; try apply Rabs_pos; assumption).
  assert (uW : uro * (M * M) <= / 1000000 * (M * M)) by (apply Rmult_le_compat_r; lra).
  destruct (sub_step _ _ _ _ _ _ _ _ _ _ Z1 (Rle_trans _ _ _ F1 E1) S1 Z2 (Rle_trans _ _ _ F2 E1) S2 ltac:(lra))
    as (z & Hz & F). exists z. split; [exact Hz|]. rewrite (Rmult_comm vb vc). eapply Rle_trans; [exact F|].
  set (MM := M * M) in *. clearbody MM.
  assert (uro * (MM + 1.001 * (uro * MM) + (MM + 1.001 * (uro * MM)) + uro) <= uro * (2.001 * MM))
    by (apply Rmult_le_compat_l; lra).
  lra.
Qed.

Let D := va * vd - vb * vc.
Hypothesis HD : M * M <= 1048576 * Rabs D.

Lemma D_le : Rabs D <= 2 * (M * M).
Proof.
  unfold D, Rminus. eapply Rle_trans; [apply Rabs_triang|]. rewrite Rabs_Ropp, !Rabs_mult.
  assert (Rabs va * Rabs vd <= M * M) by (apply Rmult_le_compat; try apply Rabs_pos; assumption).
  assert (Rabs vb * Rabs vc <= M * M) by (apply Rmult_le_compat; try apply Rabs_pos; assumption). lra.
Qed.

Lemma prod_step (g U : f64) vg u' u : f64_is g vg -> Rabs vg <= M -> f64_is U u' -> Rabs (u' - u) <= 12.1 * (uro * W1) ->
  Rabs u <= 4 * W1 ->
  exists z, f64_is (fmul g U) z /\ Rabs (z - vg * u) <= 16.2 * (uro * W2) /\ Rabs (vg * u) <= 4 * W2.
Proof.
  intros Hg Bg HU E B. pose proof uro_fine as U1. pose proof uro_pos as U0. pose proof big_80 as K.
  assert (Q1 : 0 <= uro * W1) by (pose proof W1_range; apply Rmult_le_pos; lra).
  assert (Q2 : 0 <= uro * W2) by (pose proof W2_range; apply Rmult_le_pos; lra).
  assert (Q3 : 0 <= uro * P) by (apply Rmult_le_pos; lra).
  assert (Q4 : 0 <= uro * (M * M)) by (apply Rmult_le_pos; [lra|apply Rmult_le_pos; lra]).
  pose proof W1_range as R1. pose proof W2_range as R2.
  assert (uW : uro * W1 <= / 1000000 * W1) by (apply Rmult_le_compat_r; lra).
  assert (MW : M * W1 = W2) by (unfold W1, W2; ring).
  assert (MS : M * (4 * W1 + 12.1 * (uro * W1)) <= 4.01 * W2).
  { rewrite <- MW. replace (4.01 * (M * W1)) with (M * (4.01 * W1)) by ring. apply Rmult_le_compat_l; lra. }
  destruct (mul_step g U vg M u u' _ _ Hg Bg HU E B ltac:(lra)) as (z & Z & F).
  exists z. split; [exact Z|]. split.
  - eapply Rle_trans; [exact F|].
    replace (M * (12.1 * (uro * W1))) with (12.1 * (uro * W2)) by (rewrite <- MW; ring).
    assert (uro * (M * (4 * W1 + 12.1 * (uro * W1)) + uro) <= uro * (4.02 * W2)) by (apply Rmult_le_compat_l; lra). lra.
  - rewrite Rabs_mult. replace (4 * W2) with (M * (4 * W1)) by (rewrite <- MW; ring). apply Rmult_le_compat; try apply Rabs_pos; assumption.
Qed.

Lemma back_step (n dt q0 : f64) n' D' X v0 : f64_is n n' -> Rabs (n' - D * X) <= 40.6 * (uro * W2) -> Rabs X <= 2 * P ->
  f64_is dt D' -> Rabs (D' - D) <= 4.01 * (uro * (M * M)) -> f64_is q0 v0 -> Rabs v0 <= P ->
  exists z, f64_is (fadd (fdiv n dt) q0) z /\ Rabs (z - (X + v0)) <= 64 * (uro * (M * M / Rabs D * P)).
Proof.
  intros Hn En BX Hdt ED Hq Bq. pose proof uro_fine as U1. pose proof uro_pos as U0. pose proof big_80 as K.
  assert (Q1 : 0 <= uro * W1) by (pose proof W1_range; apply Rmult_le_pos; lra).
  assert (Q2 : 0 <= uro * W2) by (pose proof W2_range; apply Rmult_le_pos; lra).
  assert (Q3 : 0 <= uro * P) by (apply Rmult_le_pos; lra).
  assert (Q4 : 0 <= uro * (M * M)) by (apply Rmult_le_pos; [lra|apply Rmult_le_pos; lra]).
  pose proof W2_range as R2. pose proof D_le as DL.
  assert (RMM : / 1099511627776 <= M * M <= 1099511627776) by (split; nra).
  assert (PD : 0 < Rabs D) by lra. set (MM := M * M) in *. set (k := MM / Rabs D).
  assert (k0 : / 2 <= k <= 1048576).
  { unfold k, Rdiv. split.
    - apply Rmult_le_reg_r with (Rabs D); [lra|]. rewrite Rmult_assoc, Rinv_l by lra. lra.
    - apply Rmult_le_reg_r with (Rabs D); [lra|]. rewrite Rmult_assoc, Rinv_l by lra. lra. }
  assert (f1 : 4.01 * (uro * MM) <= / 1000 * Rabs D).
  { assert (uro * MM <= / 9007199254740992 * MM) by (apply Rmult_le_compat_r; lra). lra. }
  assert (KW : W2 = k * Rabs D * P) by (unfold k, W2; fold MM; field; lra).
  assert (G : (40.6 * (uro * W2) + 4.01 * (uro * MM) * (2 * P)) / (Rabs D - 4.01 * (uro * MM)) <= 48.7 * (uro * (k * P))).
  { apply Rmult_le_reg_r with (Rabs D - 4.01 * (uro * MM)); [lra|].
    assert (E8 : 4.01 * (uro * MM) * (2 * P) = 8.02 * (uro * W2)) by (unfold W2; fold MM; lra).
    rewrite E8. set (dd := Rabs D - 4.01 * (uro * MM)) in *.
    unfold Rdiv. rewrite Rmult_assoc, Rinv_l, Rmult_1_r by (unfold dd; lra).
    apply Rle_trans with (48.7 * (uro * (k * P)) * (0.999 * Rabs D)).
    - replace (48.7 * (uro * (k * P)) * (0.999 * Rabs D)) with (48.7 * 0.999 * (uro * W2)) by (rewrite KW; ring).
      assert (0 <= uro * W2) by (apply Rmult_le_pos; lra). lra.
    - apply Rmult_le_compat_l; [|unfold dd; lra]. apply Rmult_le_pos; [lra|]. apply Rmult_le_pos; [lra|]. apply Rmult_le_pos; lra. }
  assert (kP : k * P <= 1048576 * P) by (apply Rmult_le_compat_r; lra).
  assert (kP2 : P <= 2 * (k * P)) by nra.
  assert (ukP : uro * (k * P) <= / 9007199254740992 * (1048576 * P)) by (apply Rmult_le_compat; try lra; apply Rmult_le_pos; lra).
  destruct (div_step n dt X (2 * P) n' _ D D' _ Hn En BX Hdt ED ltac:(lra) ltac:(lra)) as (z & Z & F).
  set (g := (40.6 * (uro * W2) + 4.01 * (uro * MM) * (2 * P)) / (Rabs D - 4.01 * (uro * MM))) in *.
  assert (F' : Rabs (z - X) <= 48.7 * (uro * (k * P)) + 2.001 * (uro * P)).
  { eapply Rle_trans; [exact F|]. apply Rplus_le_compat; [exact G|].
    assert (uro * (2 * P + g + uro) <= uro * (2.001 * P)) by (apply Rmult_le_compat_l; lra). lra. }
  assert (uP : uro * P <= / 1000000 * P) by (apply Rmult_le_compat_r; lra).
  destruct (add_step _ _ _ _ _ _ _ _ _ _ Z F' BX Hq (exact_step _) Bq ltac:(lra)) as (t & T & E).
  exists t. split; [exact T|]. eapply Rle_trans; [exact E|].
  assert (uro * (2 * P + (48.7 * (uro * (k * P)) + 2.001 * (uro * P)) + (P + 0) + uro) <= uro * (3.01 * P)) by (apply Rmult_le_compat_l; lra).
  assert (uro * P <= uro * (2 * (k * P))) by (apply Rmult_le_compat_l; lra). lra.
Qed.

Lemma round_trip_step w : affine_wcs a b c d px py = Ok w ->
  exists x' y', let '(U, V) := image2sky w x y in let '(X, Y) := sky2image w U V in
    f64_is X x' /\ f64_is Y y' /\
    Rabs (x' - vx) <= 64 * (uro * (M * M / Rabs D * P)) /\ Rabs (y' - vy) <= 64 * (uro * (M * M / Rabs D * P)).
Proof.
  unfold affine_wcs. destruct (feqb _ _); [discriminate|]. intros E.
  apply (f_equal (fun r => match r with Ok z => z | Raise _ => w end)) in E. subst w.
  destruct det_step as (D' & HD' & ED'). fold D in ED'.
  set (dt := fsub (fmul a d) (fmul c b)) in *.
  destruct (image2sky_step dt) as (u & v & I). destruct (image2sky _ x y) as [U V].
  destruct I as (HU & HV & EU & EV).
  set (X := vx - vpx) in *. set (Y := vy - vpy) in *.
  assert (SX : Rabs X <= 2 * P).
  { unfold X, Rminus. eapply Rle_trans; [apply Rabs_triang|]. rewrite Rabs_Ropp. lra. }
  assert (SY : Rabs Y <= 2 * P).
  { unfold Y, Rminus. eapply Rle_trans; [apply Rabs_triang|]. rewrite Rabs_Ropp. lra. }
  assert (SC : forall s t, Rabs s <= M -> Rabs t <= M -> Rabs (s * X + t * Y) <= 4 * W1).
  { intros s t Bs Bt. eapply Rle_trans; [apply Rabs_triang|]. rewrite !Rabs_mult.
    assert (Rabs s * Rabs X <= M * (2 * P)) by (apply Rmult_le_compat; try apply Rabs_pos; assumption).
    assert (Rabs t * Rabs Y <= M * (2 * P)) by (apply Rmult_le_compat; try apply Rabs_pos; assumption).
    unfold W1. lra. }
  pose proof uro_fine as U1. pose proof uro_pos as U0. pose proof big_80 as K.
  assert (Q1 : 0 <= uro * W1) by (pose proof W1_range; apply Rmult_le_pos; lra).
  assert (Q2 : 0 <= uro * W2) by (pose proof W2_range; apply Rmult_le_pos; lra).
  assert (Q3 : 0 <= uro * P) by (apply Rmult_le_pos; lra).
  assert (Q4 : 0 <= uro * (M * M)) by (apply Rmult_le_pos; [lra|apply Rmult_le_pos; lra]). pose proof W2_range as R2.
  assert (uW : uro * W2 <= / 1000000 * W2) by (apply Rmult_le_compat_r; lra).
  assert (EN : 16.2 * (uro * W2) + 16.2 * (uro * W2) + uro * (4 * W2 + 16.2 * (uro * W2) + (4 * W2 + 16.2 * (uro * W2)) + uro)
    <= 40.6 * (uro * W2)).
  { assert (uro * (4 * W2 + 16.2 * (uro * W2) + (4 * W2 + 16.2 * (uro * W2)) + uro) <= uro * (8.1 * W2))
      by (apply Rmult_le_compat_l; lra). lra. }
  unfold sky2image. cbn [dudx dudy dvdx dvdy x0 y0 det].
  destruct (prod_step d U vd u _ Hd Bd HU EU (SC _ _ Ba Bb)) as (z1 & Z1 & F1 & G1).
  destruct (prod_step b V vb v _ Hb Bb HV EV (SC _ _ Bc Bd)) as (z2 & Z2 & F2 & G2).
  destruct (sub_step _ _ _ _ _ _ _ _ _ _ Z1 F1 G1 Z2 F2 G2 ltac:(lra)) as (z & Z & F).
  replace (vd * (va * X + vb * Y) - vb * (vc * X + vd * Y)) with (D * X) in F by (unfold D; ring).
  destruct (back_step _ dt px z D' X vpx Z (Rle_trans _ _ _ F EN) SX HD' ED' Hpx Bpx) as (x' & Hx' & Ex').
  assert (Hnc : f64_is (fneg c) (- vc)).
  { replace (- vc) with (rnd (0 - vc)).
    - apply sub_is; [apply (f64_ofZ_is 0); lia|exact Hc|]. rewrite Rminus_0_l, Rabs_Ropp. lra.
    - rewrite Rminus_0_l. apply rnd_id, generic_format_opp, (fmt_of _ _ Hc). }
  assert (Bnc : Rabs (- vc) <= M) by now rewrite Rabs_Ropp.
  destruct (prod_step (fneg c) U (- vc) u _ Hnc Bnc HU EU (SC _ _ Ba Bb)) as (z3 & Z3 & F3 & G3).
  destruct (prod_step a V va v _ Ha Ba HV EV (SC _ _ Bc Bd)) as (z4 & Z4 & F4 & G4).
  destruct (add_step _ _ _ _ _ _ _ _ _ _ Z3 F3 G3 Z4 F4 G4 ltac:(lra)) as (z' & Z' & F').
  replace (- vc * (va * X + vb * Y) + va * (vc * X + vd * Y)) with (D * Y) in F' by (unfold D; ring).
  destruct (back_step _ dt py z' D' Y vpy Z' (Rle_trans _ _ _ F' EN) SY HD' ED' Hpy Bpy) as (y' & Hy' & Ey').
  exists x', y'. split; [exact Hx'|]. split; [exact Hy'|].
  replace (X + vpx) with vx in Ex' by (unfold X; ring). replace (Y + vpy) with vy in Ey' by (unfold Y; ring).
  split; assumption.
Qed.
End Maps.

(** The map of an affine WCS of doubles, with bounds on errors and sizes. *)
Lemma affine_near (a b c d px py : f64) va vb vc vd vpx vpy M P w :
  doubles_at_most [a; b; c; d] [va; vb; vc; vd] M -> doubles_at_most [px; py] [vpx; vpy] P ->
  bpow radix2 (-20) <= M <= bpow radix2 20 -> 1 <= P <= bpow radix2 30 ->
  affine_wcs a b c d px py = Ok w ->
  forall X Y x y, f64_is X x -> f64_is Y y -> Rabs x <= P -> Rabs y <= P ->
  exists u v, f64_is (fst (image2sky w X Y)) u /\ f64_is (snd (image2sky w X Y)) v /\
    Rabs (u - (va * x + vb * y + (- va * vpx - vb * vpy))) <= 12.1 * (uro * (M * P)) /\
    Rabs (v - (vc * x + vd * y + (- vc * vpx - vd * vpy))) <= 12.1 * (uro * (M * P)) /\
    Rabs u <= 5 * (M * P) /\ Rabs v <= 5 * (M * P).
Proof.
  intros H1 H2 RM RP EW X Y x y HX HY Bx By.
  inversion H1 as [|? ? ? ? [Ha Ba] H1b]; subst. inversion H1b as [|? ? ? ? [Hb Bb] H1c]; subst.
  inversion H1c as [|? ? ? ? [Hc Bc] H1d]; subst. inversion H1d as [|? ? ? ? [Hd Bd] _]; subst.
  inversion H2 as [|? ? ? ? [Hpx Bpx] H2b]; subst. inversion H2b as [|? ? ? ? [Hpy Bpy] _]; subst.
  change (bpow radix2 (-20)) with (/ 1048576) in RM. change (bpow radix2 20) with 1048576 in RM.
  change (bpow radix2 30) with 1073741824 in RP.
  assert (E : exists dt, w = mk_affine a b c d px py dt).
  { unfold affine_wcs in EW. destruct (feqb _ _); [discriminate|]. injection EW as <-. eauto. }
  destruct E as (dt & ->).
  destruct (image2sky_step a b c d px py X Y va vb vc vd vpx vpy x y M P Ha Hb Hc Hd Hpx Hpy HX HY
    Ba Bb Bc Bd Bpx Bpy Bx By RM RP dt) as (u & v & I).
  destruct (image2sky (mk_affine a b c d px py dt) X Y) as [U V]. destruct I as (HU & HV & E1 & E2).
  exists u, v. cbn [fst snd]. split; [exact HU|]. split; [exact HV|].
  pose proof uro_fine as U1. pose proof uro_pos as U0.
  assert (W0 : 0 <= M * P) by (apply Rmult_le_pos; lra).
  assert (UW : uro * (M * P) <= / 9007199254740992 * (M * P)) by (apply Rmult_le_compat_r; lra).
  assert (SZ : forall g h z, Rabs g <= M -> Rabs h <= M -> Rabs (z - (g * (x - vpx) + h * (y - vpy))) <= 12.1 * (uro * (M * P)) ->
    Rabs z <= 5 * (M * P)).
  { intros g h z Bg Bh E.
    assert (DX : Rabs (x - vpx) <= 2 * P) by (unfold Rminus; eapply Rle_trans; [apply Rabs_triang|]; rewrite Rabs_Ropp; lra).
    assert (DY : Rabs (y - vpy) <= 2 * P) by (unfold Rminus; eapply Rle_trans; [apply Rabs_triang|]; rewrite Rabs_Ropp; lra).
    assert (Rabs (g * (x - vpx) + h * (y - vpy)) <= 4 * (M * P)).
    { eapply Rle_trans; [apply Rabs_triang|]. rewrite !Rabs_mult.
      assert (Rabs g * Rabs (x - vpx) <= M * (2 * P)) by (apply Rmult_le_compat; try apply Rabs_pos; assumption).
      assert (Rabs h * Rabs (y - vpy) <= M * (2 * P)) by (apply Rmult_le_compat; try apply Rabs_pos; assumption). lra. }
    eapply Rle_trans; [eapply near_size; eassumption|]. lra. }
  split.
  { replace (va * x + vb * y + (- va * vpx - vb * vpy)) with (va * (x - vpx) + vb * (y - vpy)) by ring. exact E1. }
  split.
  { replace (vc * x + vd * y + (- vc * vpx - vd * vpy)) with (vc * (x - vpx) + vd * (y - vpy)) by ring. exact E2. }
  split; eapply SZ; [exact Ba|exact Bb|exact E1|exact Bc|exact Bd|exact E2].
Qed.

Lemma uro_47 : bpow radix2 (-47) = 64 * uro.
Proof. unfold uro. replace (-47)%Z with (6 + -53)%Z by lia. rewrite bpow_plus. reflexivity. Qed.
