(** How far the sinc approximant is from the sinc function. *)
From Coq Require Import ZArith List Bool Reals Lia Lra Machin.
From Verif Require Import Lib.Base Lib.Floats Model.Lanczos Spec.LanczosSpec
  Proofs.BaseFacts Proofs.PolyPos Proofs.LanczosProofs.
Import ListNotations.
Open Scope R_scope.

(** ** A rational approximation of pi *)

Definition pq : R := 103993 / 33102.

Lemma pi_close : Rabs (PI - pq) <= 6 / 10 ^ 10.
Proof.
  pose proof (PI_2_3_7_ineq 5) as H. unfold tg_alt, PI_2_3_7_tg, Ratan_seq in H.
  cbn [Nat.mul Nat.add sum_f_R0 pow INR] in H.
  apply Rabs_le. unfold pq. lra.
Qed.

Lemma pi_34 : 3 < PI < 4.
Proof.
  pose proof pi_close as H. unfold Rabs in H. destruct (Rcase_abs _) in H; unfold pq in *; lra.
Qed.

(** ** sin *)

Lemma sin_abs : forall u, Rabs (sin u) <= Rabs u.
Proof.
  assert (P : forall u, 0 <= u -> Rabs (sin u) <= u).
  { intros u Hu. destruct (Req_dec u 0) as [->|Hn]; [rewrite sin_0, Rabs_R0; lra|].
    apply Rabs_le. split; [|left; apply sin_lt_x; lra].
    destruct (Rle_lt_dec u PI) as [L|L].
    - pose proof (sin_ge_0 u Hu L). lra.
    - pose proof (SIN_bound u). pose proof pi_34. lra. }
  intros u. destruct (Rle_lt_dec 0 u) as [H|H].
  - rewrite (Rabs_right u) by lra. apply P. assumption.
  - rewrite (Rabs_left u) by assumption. rewrite <- (Ropp_involutive u) at 1.
    rewrite sin_neg, Rabs_Ropp. apply P. lra.
Qed.

Lemma sin_lipschitz : forall u v, Rabs (sin u - sin v) <= Rabs (u - v).
Proof.
  intros u v. rewrite form4. rewrite !Rabs_mult, (Rabs_right 2) by lra.
  pose proof (sin_abs ((u - v) / 2)) as H.
  assert (C : Rabs (cos ((u + v) / 2)) <= 1).
  { apply Rabs_le. pose proof (COS_bound ((u + v) / 2)). lra. }
  replace (Rabs ((u - v) / 2)) with (Rabs (u - v) / 2) in H.
  2:{ unfold Rdiv. rewrite Rabs_mult, (Rabs_right (/ 2)) by lra. reflexivity. }
  pose proof (Rabs_pos (sin ((u - v) / 2))). pose proof (Rabs_pos (cos ((u + v) / 2))).
  assert (Rabs (cos ((u + v) / 2)) * Rabs (sin ((u - v) / 2)) <= 1 * (Rabs (u - v) / 2)).
  { apply Rmult_le_compat; assumption. }
  lra.
Qed.

Fixpoint zfact (n : nat) : Z :=
  match n with O => 1%Z | S m => (Z.of_nat n * zfact m)%Z end.

Lemma INR_fact_Z : forall n, INR (fact n) = IZR (zfact n).
Proof.
  induction n as [|n IH]; [reflexivity|].
  rewrite fact_simpl, mult_INR, IH, INR_IZR_INZ. cbn [zfact]. rewrite mult_IZR. reflexivity.
Qed.

(** The Taylor polynomial of degree 15. *)
Definition sin15 (a : R) : R :=
  a - a ^ 3 / 6 + a ^ 5 / 120 - a ^ 7 / 5040 + a ^ 9 / 362880 - a ^ 11 / 39916800
  + a ^ 13 / 6227020800 - a ^ 15 / 1307674368000.

Lemma sin15_approx : forall a, sin_approx a 7 = sin15 a /\
  sin_approx a 8 = sin15 a + a ^ 17 / 355687428096000.
Proof.
  intros a. unfold sin_approx, sin_term.
  assert (E : sum_f_R0 (fun i => (-1) ^ i * (a ^ (2 * i + 1) / INR (fact (2 * i + 1)))) 7 = sin15 a).
  { cbn [sum_f_R0]. rewrite !INR_fact_Z.
    repeat match goal with |- context [zfact ?n] =>
      let z := eval vm_compute in (zfact n) in change (zfact n) with z end.
    cbn [Nat.mul Nat.add]. unfold sin15. field. }
  split; [exact E|].
  rewrite tech5, E. rewrite !INR_fact_Z.
  match goal with |- context [zfact ?n] =>
    let z := eval vm_compute in (zfact n) in change (zfact n) with z end.
  cbn [Nat.mul Nat.add]. field.
Qed.

Lemma sin15_close : forall t, Rabs t <= 1 / 2 -> Rabs (sin (pq * t) - sin15 (pq * t)) <= Rabs t / 10 ^ 10.
Proof.
  assert (P : forall t, 0 <= t <= 1 / 2 -> Rabs (sin (pq * t) - sin15 (pq * t)) <= t / 10 ^ 10).
  { intros t Ht. set (a := pq * t).
    assert (Ha : 0 <= a <= 1571 / 1000) by (unfold a, pq; lra).
    destruct (sin_bound a 3 ltac:(lra) ltac:(pose proof pi_34; lra)) as [L U].
    change (2 * 3 + 1)%nat with 7%nat in L. change (2 * (3 + 1))%nat with 8%nat in U.
    destruct (sin15_approx a) as [E7 E8]. rewrite E7 in L. rewrite E8 in U.
    assert (B : a ^ 17 / 355687428096000 <= t / 10 ^ 10).
    { assert (a ^ 16 <= (1571 / 1000) ^ 16) by (apply pow_incr; assumption).
      assert (K : a ^ 17 <= a * (1571 / 1000) ^ 16).
      { change (a ^ 17) with (a * a ^ 16). apply Rmult_le_compat_l; [lra|assumption]. }
      assert (a * (1571 / 1000) ^ 16 <= (t * (3142 / 1000)) * (1571 / 1000) ^ 16).
      { apply Rmult_le_compat_r; [apply pow_le; lra|]. unfold a, pq. lra. }
      lra. }
    apply Rabs_le. lra. }
  intros t Ht. destruct (Rle_lt_dec 0 t) as [H|H].
  - rewrite (Rabs_right t) in * by lra. apply P. lra.
  - rewrite (Rabs_left t) in * by assumption.
    replace (sin (pq * t) - sin15 (pq * t)) with (- (sin (pq * - t) - sin15 (pq * - t))).
    2:{ rewrite <- Ropp_mult_distr_r, sin_neg. unfold sin15. field. }
    rewrite Rabs_Ropp. apply P. lra.
Qed.

(** ** The pieces around the integers 0 to 3 *)

Definition sgn (k : Z) : R := if Z.even k then 1 else -1.

Lemma sin_shift : forall (k : Z) (t : R), (0 <= k <= 3)%Z ->
  sin (PI * (IZR k + t)) = sgn k * sin (PI * t).
Proof.
  intros k t Hk.
  assert (C : (k = 0 \/ k = 1 \/ k = 2 \/ k = 3)%Z) by lia.
  assert (N : forall u, sin (PI * (1 + u)) = - sin (PI * u)).
  { intros u. replace (PI * (1 + u)) with (PI * u + PI) by ring. apply neg_sin. }
  destruct C as [ -> | [ -> | [ -> | -> ]]]; unfold sgn; cbn [Z.even].
  - rewrite Rplus_0_l. ring.
  - rewrite N. ring.
  - replace (2 + t) with (1 + (1 + t)) by ring. rewrite !N. ring.
  - replace (3 + t) with (1 + (1 + (1 + t))) by ring. rewrite !N. ring.
Qed.

Lemma sin_piece : forall (k : Z) (t : R), (0 <= k <= 3)%Z -> Rabs t <= 1 / 2 ->
  Rabs (sin (PI * (IZR k + t)) - sgn k * sin15 (pq * t)) <= Rabs t * (7 / 10 ^ 10).
Proof.
  intros k t Hk Ht. rewrite sin_shift by assumption.
  replace (sgn k * sin (PI * t) - sgn k * sin15 (pq * t))
    with (sgn k * ((sin (PI * t) - sin (pq * t)) + (sin (pq * t) - sin15 (pq * t)))) by ring.
  rewrite Rabs_mult.
  replace (Rabs (sgn k)) with 1 by (unfold sgn; destruct (Z.even k); [rewrite Rabs_right; lra|rewrite Rabs_left; lra]).
  rewrite Rmult_1_l. eapply Rle_trans; [apply Rabs_triang|].
  pose proof (sin15_close t Ht) as A. pose proof (sin_lipschitz (PI * t) (pq * t)) as B.
  replace (PI * t - pq * t) with ((PI - pq) * t) in B by ring. rewrite Rabs_mult in B.
  pose proof pi_close as C. pose proof (Rabs_pos t).
  assert (Rabs (PI - pq) * Rabs t <= 6 / 10 ^ 10 * Rabs t) by (apply Rmult_le_compat_r; assumption).
  lra.
Qed.

(** ** The polynomial inequalities *)

Definition numZ : list Z :=
  [-166666666666666000000; -289176685343373000000; -109757669089546000000; 35093108057559600000;
   22994758464333600000; -893639582019350000; -1627221929657220000; -30068914607562600;
   51386446977429400; 1235615633822140; -637392253619041]%Z.
Definition denZ : list Z :=
  [10000000000000000000000; -982732212730775000000; 1225365426084030000000; -111525324680647000000;
   72470751283301900000; -5847744456534040000; 2625280482965790000; -171596576734417000;
   59194541166080400; -2441748185794910; 674473938075399]%Z.

Definition topZ : list Z :=
  pmul (pmul (pmul (pscal 10 numZ) [-1; 1]%Z) [-2; 1]%Z) [-3; 1]%Z.

Lemma topZ_ok : forall x, peval topZ x = 10 * pnum x * (x - 1) * (x - 2) * (x - 3).
Proof.
  intros x. unfold topZ. rewrite !peval_mul, peval_scal.
  replace (peval numZ x) with (pnum x) by (unfold numZ, pnum; cbn [peval]; ring).
  cbn [peval]. ring.
Qed.

Lemma denZ_ok : forall x, peval denZ x = pden x.
Proof. intros x. unfold denZ, pden. cbn [peval]. ring. Qed.

(** [33102 ^ 15 * 15! * sin15 (pq * t) / t]. *)
Definition sinZ : list Z :=
  let P := 103993%Z in let Q := 33102%Z in
  [P * Q ^ 14 * 1307674368000; 0; - (P ^ 3 * Q ^ 12 * 217945728000); 0; P ^ 5 * Q ^ 10 * 10897286400; 0;
   - (P ^ 7 * Q ^ 8 * 259459200); 0; P ^ 9 * Q ^ 6 * 3603600; 0; - (P ^ 11 * Q ^ 4 * 32760); 0;
   P ^ 13 * Q ^ 2 * 210; 0; - (P ^ 15)]%Z.

Definition scaleZ : Z := 33102 ^ 15 * 1307674368000.

Lemma sinZ_ok : forall t, t * peval sinZ t = IZR scaleZ * sin15 (pq * t).
Proof.
  intros t. unfold sin15, pq, scaleZ, sinZ. cbn [peval].
  rewrite ?opp_IZR, ?mult_IZR.
  repeat match goal with |- context [IZR (?a ^ Zpos ?n)] =>
    let m := eval compute in (Pos.to_nat n) in
    change (IZR (a ^ Zpos n)) with (IZR (a ^ Z.of_nat m)); rewrite <- (pow_IZR a m) end.
  assert (HQ : 33102 <> 0) by lra. revert HQ.
  generalize 103993 33102. intros P Q HQ. field. exact HQ.
Qed.

Definition epsn : Z := 1049.
Definition epsd : Z := 1000000000.
Definition piZ : Z := 103993 * 33102 ^ 14 * 1307674368000.

Definition gap (k s : Z) (X S : list Z) : list Z * list Z :=
  let D := pshift k denZ in
  let A := pscal (epsn * piZ) (pmul X D) in
  let B := pscal epsd (padd (pscal piZ (pmul (pshift k topZ) X)) (pscal (- s) (pmul S D))) in
  (padd A B, padd A (pscal (-1) B)).

Definition both (M lo hi : Z) (g : list Z * list Z) : bool :=
  check M lo hi (fst g) && check M lo hi (snd g).

Lemma check0 : both 6 0 3 (gap 0 1 [1]%Z sinZ) = true.
Proof. vm_compute. reflexivity. Qed.
Lemma check1 : both 6 (-3) 3 (gap 1 (-1) [1; 1]%Z (0 :: sinZ)%Z) = true.
Proof. vm_compute. reflexivity. Qed.
Lemma check2 : both 6 (-3) 3 (gap 2 1 [2; 1]%Z (0 :: sinZ)%Z) = true.
Proof. vm_compute. reflexivity. Qed.
Lemma check3 : both 6 (-3) 0 (gap 3 (-1) [3; 1]%Z (0 :: sinZ)%Z) = true.
Proof. vm_compute. reflexivity. Qed.

Lemma gap_ok : forall (k s : Z) (X S : list Z) (M lo hi : Z) (t : R),
  both M lo hi (gap k s X S) = true -> (0 < M)%Z -> (lo < hi)%Z ->
  IZR lo / IZR M <= t <= IZR hi / IZR M ->
  Rabs (IZR epsd * (IZR piZ * (peval topZ (IZR k + t) * peval X t)
                    - IZR s * (peval S t * pden (IZR k + t))))
  <= IZR epsn * IZR piZ * (peval X t * pden (IZR k + t)).
Proof.
  intros k s X S M lo hi t H HM Hlh Ht. unfold both in H.
  apply andb_true_iff in H. destruct H as [H1 H2].
  pose proof (check_ok _ _ _ _ _ HM Hlh H1 Ht) as P1.
  pose proof (check_ok _ _ _ _ _ HM Hlh H2 Ht) as P2.
  unfold gap, fst, snd in P1, P2.
  repeat (rewrite peval_add in P1 || rewrite peval_scal in P1 || rewrite peval_mul in P1 ||
          rewrite peval_shift in P1 || rewrite denZ_ok in P1).
  repeat (rewrite peval_add in P2 || rewrite peval_scal in P2 || rewrite peval_mul in P2 ||
          rewrite peval_shift in P2 || rewrite denZ_ok in P2).
  rewrite ?opp_IZR, ?mult_IZR in P1. rewrite ?opp_IZR, ?mult_IZR in P2.
  apply Rabs_le. lra.
Qed.

Lemma piZ_scale : IZR piZ = pq * IZR scaleZ /\ 0 < IZR scaleZ /\ 0 < IZR piZ.
Proof.
  split; [|split; apply IZR_lt; vm_compute; reflexivity].
  assert (E : (piZ * 33102 = 103993 * scaleZ)%Z) by (vm_compute; reflexivity).
  apply (f_equal IZR) in E. rewrite !mult_IZR in E. unfold pq. lra.
Qed.

Lemma from_gap : forall (k : Z) (x t : R) (X S : R),
  x = IZR k + t -> 0 < x -> 0 < X ->
  S * x = X * (t * peval sinZ t) ->
  Rabs (IZR epsd * (IZR piZ * (peval topZ x * X) - sgn k * (S * pden x)))
  <= IZR epsn * IZR piZ * (X * pden x) ->
  Rabs (sinc_pade x - sgn k * (sin15 (pq * t) / (pq * x))) <= 1049 / 10 ^ 9.
Proof.
  intros k x t X S Ex Hx HX HS H.
  destruct piZ_scale as (EP & Hs & HP). pose proof (pden_pos x) as HD.
  rewrite sinc_R, (Rabs_right x) by lra. rewrite <- topZ_ok.
  assert (ES : sin15 (pq * t) = t * peval sinZ t / IZR scaleZ) by (rewrite sinZ_ok; field; lra).
  rewrite ES. revert HS.
  assert (Hq : 0 < pq) by (unfold pq; lra).
  change (IZR epsd) with 1000000000 in H. change (IZR epsn) with 1049 in H.
  revert EP Hs HP H. generalize (IZR piZ) (IZR scaleZ) (peval sinZ t) (peval topZ x) (pden x) HD.
  clear HD ES. intros pz sz sp tp d HD EP Hs HP H HS.
  set (c := 1000000000 * pz * X * d).
  assert (Hc : 0 < c).
  { unfold c. apply Rmult_lt_0_compat; [|assumption]. apply Rmult_lt_0_compat; [|assumption].
    apply Rmult_lt_0_compat; [lra|assumption]. }
  assert (E : tp / d - sgn k * (t * sp / sz / (pq * x))
    = 1000000000 * (pz * (tp * X) - sgn k * (S * d)) / c).
  { assert (Et : t * sp = S * x / X) by (rewrite HS; field; lra).
    rewrite Et. unfold c. rewrite EP. revert Hq. generalize pq. intros q Hq.
    field. repeat split; lra. }
  rewrite E. unfold Rdiv at 1. rewrite Rabs_mult, (Rabs_right (/ c)).
  2:{ apply Rle_ge. left. apply Rinv_0_lt_compat. assumption. }
  apply Rmult_le_reg_r with c; [assumption|].
  rewrite Rmult_assoc, Rinv_l, Rmult_1_r by lra.
  eapply Rle_trans; [exact H|]. unfold c. right. field.
Qed.

Lemma sinc_piece : forall (k : Z) (t : R), (0 <= k <= 3)%Z -> Rabs t <= 1 / 2 ->
  0 < IZR k + t <= 3 ->
  Rabs (sinc_pade (IZR k + t) - sgn k * (sin15 (pq * t) / (pq * (IZR k + t)))) <= 1049 / 10 ^ 9.
Proof.
  intros k t Hk Ht Hx.
  assert (Ht' : - (1 / 2) <= t <= 1 / 2).
  { pose proof (Rle_abs t). pose proof (Rle_abs (- t)) as N. rewrite Rabs_Ropp in N. lra. }
  assert (C : (k = 0 \/ k = 1 \/ k = 2 \/ k = 3)%Z) by lia.
  destruct C as [ -> | [ -> | [ -> | -> ]]].
  - eapply (from_gap 0 _ t 1 (peval sinZ t)); [reflexivity|lra|lra|lra|].
    pose proof (gap_ok _ _ _ _ _ _ _ t check0 eq_refl eq_refl ltac:(lra)) as G.
    unfold sgn. cbn [Z.even]. cbn [peval] in G. rewrite Rmult_0_r, Rplus_0_r in G. exact G.
  - eapply (from_gap 1 _ t (1 + t) (t * peval sinZ t)); [reflexivity|lra|lra|lra|].
    pose proof (gap_ok _ _ _ _ _ _ _ t check1 eq_refl eq_refl ltac:(lra)) as G.
    change (peval (0 :: sinZ)%Z t) with (0 + t * peval sinZ t) in G. rewrite Rplus_0_l in G.
    change (peval [1; 1]%Z t) with (1 + t * (1 + t * 0)) in G.
    replace (1 + t * (1 + t * 0)) with (1 + t) in G by ring. exact G.
  - eapply (from_gap 2 _ t (2 + t) (t * peval sinZ t)); [reflexivity|lra|lra|lra|].
    pose proof (gap_ok _ _ _ _ _ _ _ t check2 eq_refl eq_refl ltac:(lra)) as G.
    change (peval (0 :: sinZ)%Z t) with (0 + t * peval sinZ t) in G. rewrite Rplus_0_l in G.
    change (peval [2; 1]%Z t) with (2 + t * (1 + t * 0)) in G.
    replace (2 + t * (1 + t * 0)) with (2 + t) in G by ring. exact G.
  - eapply (from_gap 3 _ t (3 + t) (t * peval sinZ t)); [reflexivity|lra|lra|lra|].
    pose proof (gap_ok _ _ _ _ _ _ _ t check3 eq_refl eq_refl ltac:(lra)) as G.
    change (peval (0 :: sinZ)%Z t) with (0 + t * peval sinZ t) in G. rewrite Rplus_0_l in G.
    change (peval [3; 1]%Z t) with (3 + t * (1 + t * 0)) in G.
    replace (3 + t * (1 + t * 0)) with (3 + t) in G by ring. exact G.
Qed.

(** ** Accuracy *)

Lemma split_x : forall x, 0 < x <= 3 -> exists (k : Z) (t : R),
  x = IZR k + t /\ (0 <= k <= 3)%Z /\ Rabs t <= 1 / 2 /\ Rabs t <= x.
Proof.
  intros x Hx.
  destruct (Rle_lt_dec x (1 / 2)); [exists 0%Z, x; repeat split; try lia; try lra; rewrite Rabs_right; lra|].
  destruct (Rle_lt_dec x (3 / 2)); [exists 1%Z, (x - 1); repeat split; try lia; try lra; apply Rabs_le; lra|].
  destruct (Rle_lt_dec x (5 / 2)); [exists 2%Z, (x - 2); repeat split; try lia; try lra; apply Rabs_le; lra|].
  exists 3%Z, (x - 3); repeat split; try lia; try lra; apply Rabs_le; lra.
Qed.

Lemma sinc_close_pos : forall x, 0 < x <= 3 ->
  Rabs (sinc_pade x - sin (PI * x) / (PI * x)) <= 105 / 10 ^ 8.
Proof.
  intros x Hx. destruct (split_x x Hx) as (k & t & E & Hk & Ht & Htx).
  pose proof (sinc_piece k t Hk Ht ltac:(lra)) as A.
  pose proof (sin_piece k t Hk Ht) as B.
  rewrite <- E in A, B.
  assert (Hq : 0 < pq) by (unfold pq; lra). pose proof pi_34 as HP. pose proof pi_close as HC.
  set (s := sin (PI * x)) in *.
  assert (Hs : Rabs s <= PI * x).
  { unfold s. eapply Rle_trans; [apply sin_abs|]. rewrite Rabs_right; [lra|].
    apply Rle_ge, Rmult_le_pos; lra. }
  replace (sinc_pade x - s / (PI * x)) with
    ((sinc_pade x - sgn k * (sin15 (pq * t) / (pq * x)))
     + ((sgn k * sin15 (pq * t) - s) / (pq * x) + s / (PI * x) * ((PI - pq) / pq))).
  2:{ field. repeat split; lra. }
  assert (T1 : Rabs ((sgn k * sin15 (pq * t) - s) / (pq * x)) <= 7 / 10 ^ 10 / 3).
  { unfold Rdiv at 1. rewrite Rabs_mult, (Rabs_right (/ (pq * x))).
    2:{ apply Rle_ge. left. apply Rinv_0_lt_compat, Rmult_lt_0_compat; lra. }
    rewrite Rabs_minus_sym in B.
    apply Rmult_le_reg_r with (pq * x); [apply Rmult_lt_0_compat; lra|].
    rewrite Rmult_assoc, Rinv_l, Rmult_1_r by (apply Rgt_not_eq, Rmult_lt_0_compat; lra).
    eapply Rle_trans; [exact B|].
    assert (Rabs t * (7 / 10 ^ 10) <= x * (7 / 10 ^ 10)) by (apply Rmult_le_compat_r; lra).
    assert (3 * x <= pq * x) by (apply Rmult_le_compat_r; unfold pq; lra). lra. }
  assert (T2 : Rabs (s / (PI * x) * ((PI - pq) / pq)) <= 6 / 10 ^ 10 / 3).
  { rewrite Rabs_mult.
    assert (U : Rabs (s / (PI * x)) <= 1).
    { unfold Rdiv. rewrite Rabs_mult, (Rabs_right (/ (PI * x))).
      2:{ apply Rle_ge. left. apply Rinv_0_lt_compat, Rmult_lt_0_compat; lra. }
      apply Rmult_le_reg_r with (PI * x); [apply Rmult_lt_0_compat; lra|].
      rewrite Rmult_assoc, Rinv_l, Rmult_1_r by (apply Rgt_not_eq, Rmult_lt_0_compat; lra). lra. }
    assert (V : Rabs ((PI - pq) / pq) <= 6 / 10 ^ 10 / 3).
    { unfold Rdiv at 1. rewrite Rabs_mult, (Rabs_right (/ pq)).
      2:{ apply Rle_ge. left. apply Rinv_0_lt_compat; lra. }
      apply Rmult_le_reg_r with pq; [assumption|].
      rewrite Rmult_assoc, Rinv_l, Rmult_1_r by lra. unfold pq at 2. lra. }
    pose proof (Rabs_pos (s / (PI * x))). pose proof (Rabs_pos ((PI - pq) / pq)).
    replace (6 / 10 ^ 10 / 3) with (1 * (6 / 10 ^ 10 / 3)) by ring.
    apply Rmult_le_compat; assumption. }
  eapply Rle_trans; [apply Rabs_triang|].
  eapply Rle_trans; [apply Rplus_le_compat; [exact A|apply Rabs_triang]|]. lra.
Qed.

Lemma true_sinc_even : forall x, true_sinc (- x) = true_sinc x.
Proof.
  intros x. unfold true_sinc. destruct (Req_EM_T x 0) as [->|N], (Req_EM_T (- _) 0) as [M|M];
    try lra; try (exfalso; lra).
  rewrite <- Ropp_mult_distr_r, sin_neg. field. split; [assumption|apply PI_neq0].
Qed.

Lemma true_sinc_le_1 : forall x, Rabs (true_sinc x) <= 1.
Proof.
  intros x. unfold true_sinc. destruct (Req_EM_T x 0) as [->|N]; [rewrite Rabs_right; lra|].
  pose proof (sin_abs (PI * x)) as H.
  assert (PI * x <> 0) by (apply Rmult_integral_contrapositive_currified; [apply PI_neq0|assumption]).
  pose proof (Rabs_pos_lt _ H0).
  unfold Rdiv. rewrite Rabs_mult, Rabs_inv.
  apply Rmult_le_reg_r with (Rabs (PI * x)); [assumption|].
  rewrite Rmult_assoc, Rinv_l, Rmult_1_r by lra. lra.
Qed.

Lemma sinc_close : forall x : R, Rabs x <= 3 -> Rabs (sinc_pade x - true_sinc x) <= 105 / 10 ^ 8.
Proof.
  assert (P : forall x, 0 <= x <= 3 -> Rabs (sinc_pade x - true_sinc x) <= 105 / 10 ^ 8).
  { intros x Hx. unfold true_sinc. destruct (Req_EM_T x 0) as [->|N].
    - rewrite sinc_R, Rabs_R0. unfold pnum, pden. apply Rabs_le. lra.
    - apply sinc_close_pos. lra. }
  intros x Hx. destruct (Rle_lt_dec 0 x) as [H|H].
  - apply P. rewrite Rabs_right in Hx by lra. lra.
  - rewrite Rabs_left in Hx by assumption.
    rewrite <- (sinc_even x), <- (true_sinc_even x). apply P. lra.
Qed.

Lemma kernel_close : forall (a : Z) (d : R), (1 <= a)%Z -> Rabs d <= 3 ->
  Rabs (lanczos_kernel a d - true_sinc d * true_sinc (d / IZR a)) <= 22 / 10 ^ 7.
Proof.
  intros a d Ha Hd. assert (HA : 1 <= IZR a) by (apply (IZR_le 1); assumption).
  assert (Hd' : Rabs (d / IZR a) <= 3).
  { unfold Rdiv. rewrite Rabs_mult, Rabs_inv, (Rabs_right (IZR a)) by lra.
    apply Rmult_le_reg_r with (IZR a); [lra|].
    rewrite Rmult_assoc, Rinv_l, Rmult_1_r by lra. lra. }
  pose proof (sinc_close d Hd) as E1. pose proof (sinc_close _ Hd') as E2.
  pose proof (true_sinc_le_1 d) as T1. pose proof (true_sinc_le_1 (d / IZR a)) as T2.
  change (lanczos_kernel a d) with (sinc_pade d * sinc_pade (d / IZR a)).
  revert E1 E2 T1 T2. generalize (sinc_pade d) (sinc_pade (d / IZR a)) (true_sinc d) (true_sinc (d / IZR a)).
  clear. intros p q s t E1 E2 T1 T2.
  replace (p * q - s * t) with ((p - s) * (q - t) + (s * (q - t) + t * (p - s))) by ring.
  assert (M : forall u v a b, Rabs u <= a -> Rabs v <= b -> Rabs (u * v) <= a * b).
  { intros u v a b Hu Hv. rewrite Rabs_mult. apply Rmult_le_compat; try assumption; apply Rabs_pos. }
  pose proof (M _ _ _ _ E1 E2). pose proof (M _ _ _ _ T1 E2). pose proof (M _ _ _ _ T2 E1).
  eapply Rle_trans; [apply Rabs_triang|].
  eapply Rle_trans; [apply Rplus_le_compat_l, Rabs_triang|]. lra.
Qed.
