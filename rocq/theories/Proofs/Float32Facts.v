(** Single precision numbers and sums stored in single precision. *)
From Coq Require Import ZArith List Lia Reals Lra SpecFloat.
From Flocq Require Import Core BinarySingleNaN.
From Flocq Require Import Relative.
From Coq Require Import List.
From Verif Require Import Lib.Base Lib.Floats Lib.Float32 Spec.FloatSpec Spec.CoaddSpec Spec.Float32Spec
  Proofs.F64Facts Proofs.RoundSum.
Import ListNotations.
Open Scope R_scope.

#[local] Instance Hprec : Prec_gt_0 53 := eq_refl _.
#[local] Instance Hmax : Prec_lt_emax 53 1024 := eq_refl _.
#[local] Instance fexp64_valid : Valid_exp fexp64 := fexp_correct 53 1024 _.
#[local] Instance fexp64_mono : Monotone_exp fexp64 := fexp_monotone 53 1024.

Notation fexp32 := (SpecFloat.fexp 24 128).
Notation rnd32 := (Generic_fmt.round radix2 fexp32 ZnearestE).

#[local] Instance Hprec32 : Prec_gt_0 24 := eq_refl _.
#[local] Instance Hmax32 : Prec_lt_emax 24 128 := eq_refl _.
#[local] Instance fexp32_valid : Valid_exp fexp32 := fexp_correct 24 128 _.
#[local] Instance fexp32_mono : Monotone_exp fexp32 := fexp_monotone 24 128.

Lemma binary_round_equiv32 s m e :
  SpecFloat.binary_round 24 128 s m e = binary_round 24 128 mode_NE s m e.
Proof.
  unfold SpecFloat.binary_round, binary_round, shl_align_fexp.
  set (mez := shl_align _ _ _); case mez as [mz ez].
  unfold SpecFloat.binary_round_aux, binary_round_aux.
  set (mrse' := shr_fexp _ _ _ _ _). case mrse'; intros mrs' e'; simpl.
  now rewrite (round_nearest_even_equiv s).
Qed.

Lemma rnd32_0 : rnd32 0 = 0.
Proof. apply round_0. typeclasses eauto. Qed.

Lemma format_incl v : generic_format radix2 fexp32 v -> generic_format radix2 fexp64 v.
Proof.
  apply (generic_inclusion_mag radix2 fexp32 fexp64). intros _.
  unfold SpecFloat.fexp, SpecFloat.emin. lia.
Qed.

(** The conversion. *)
Lemma to_single_is x v : f64_is x v -> Rabs (rnd32 v) < bpow radix2 128 -> f64_is (to_single x) (rnd32 v).
Proof.
  intros (Vx & Fx & Ex) B. destruct x as [s|s| |s m e]; try discriminate.
  - cbn in Ex. subst v. rewrite rnd32_0. split; [reflexivity|]. split; reflexivity.
  - unfold to_single. rewrite binary_round_equiv32.
    pose proof (binary_round_correct 24 128 _ _ mode_NE s m e) as C. cbv zeta in C. destruct C as [V C].
    change (F2R {| Fnum := cond_Zopp s (Z.pos m); Fexp := e |}) with (f64_val (S754_finite s m e)) in C.
    rewrite Ex in C. cbn [round_mode] in C. rewrite Rlt_bool_true in C by exact B. destruct C as (C1 & C2 & _).
    destruct (binary_round 24 128 mode_NE s m e) as [s'|s'| |s' m' e']; try discriminate.
    + cbn in C1. rewrite <- C1. split; [reflexivity|]. split; reflexivity.
    + rewrite binary_round_equiv.
      pose proof (binary_round_correct 53 1024 _ _ mode_NE s' m' e') as D. cbv zeta in D. destruct D as [V2 D].
      change (F2R {| Fnum := cond_Zopp s' (Z.pos m'); Fexp := e' |}) with (SF2R radix2 (S754_finite s' m' e')) in D.
      rewrite C1 in D. cbn [round_mode] in D.
      assert (G : generic_format radix2 fexp64 (rnd32 v)) by (apply format_incl, generic_format_round; typeclasses eauto).
      rewrite round_generic in D by (exact G || typeclasses eauto).
      rewrite Rlt_bool_true in D by (eapply Rlt_trans; [exact B|apply bpow_lt; lia]).
      destruct D as (D1 & D2 & _). split; [exact V2|]. split; [|exact D1].
      destruct (binary_round 53 1024 mode_NE s' m' e'); try discriminate; reflexivity.
Qed.

Lemma to_single_overflow x v : f64_is x v -> bpow radix2 128 <= Rabs (rnd32 v) ->
  exists s, to_single x = S754_infinity s /\ (s = true <-> v < 0).
Proof.
  intros (Vx & Fx & Ex) B. destruct x as [s|s| |s m e]; try discriminate.
  - cbn in Ex. subst v. rewrite rnd32_0, Rabs_R0 in B. pose proof (bpow_gt_0 radix2 128). lra.
  - unfold to_single. rewrite binary_round_equiv32.
    pose proof (binary_round_correct 24 128 _ _ mode_NE s m e) as C. cbv zeta in C. destruct C as [V C].
    change (F2R {| Fnum := cond_Zopp s (Z.pos m); Fexp := e |}) with (f64_val (S754_finite s m e)) in C.
    rewrite Ex in C. cbn [round_mode] in C. rewrite Rlt_bool_false in C by exact B. rewrite C.
    exists s. split; [reflexivity|]. rewrite <- Ex. unfold f64_val. cbn.
    destruct s; cbn [cond_Zopp Z.opp]; (split; intros H; [|try reflexivity]).
    + apply F2R_lt_0. reflexivity.
    + discriminate.
    + exfalso. pose proof (F2R_gt_0 radix2 (Float radix2 (Z.pos m) e) eq_refl) as K. exact (Rlt_asym _ _ H K).
Qed.

(** Single precision numbers as a format. *)
Lemma single_format v : single v -> generic_format radix2 fexp32 v /\ Rabs v < bpow radix2 128.
Proof.
  intros (m & e & -> & Hm & He). split.
  - apply (generic_format_FLT radix2 (-149) 24). apply (FLT_spec radix2 (-149) 24 _ (Float radix2 m e)).
    + reflexivity.
    + exact Hm.
    + apply He.
  - rewrite Rabs_mult, (Rabs_pos_eq (bpow radix2 e)) by apply bpow_ge_0. rewrite <- abs_IZR.
    apply Rlt_le_trans with (bpow radix2 24 * bpow radix2 e).
    + apply Rmult_lt_compat_r; [apply bpow_gt_0|]. apply (IZR_lt _ (2 ^ 24)). exact Hm.
    + rewrite <- bpow_plus. apply bpow_le. lia.
Qed.

Lemma format_single v : generic_format radix2 fexp32 v -> Rabs v < bpow radix2 128 -> single v.
Proof.
  intros G B. apply (FLT_format_generic radix2 (-149) 24) in G.
  destruct G as [[m e] Ev Hm He]. cbn [Fnum Fexp] in Hm, He. unfold F2R in Ev. cbn [Fnum Fexp] in Ev.
  destruct (Z_le_gt_dec e 104) as [L|L].
  - exists m, e. split; [exact Ev|]. split; [exact Hm|lia].
  - exists (m * 2 ^ (e - 104))%Z, 104%Z.
    assert (E2 : v = IZR (m * 2 ^ (e - 104)) * bpow radix2 104).
    { rewrite Ev, mult_IZR, (IZR_Zpower radix2) by lia. rewrite Rmult_assoc, <- bpow_plus. do 2 f_equal. lia. }
    split; [exact E2|]. split; [|lia]. apply lt_IZR. rewrite abs_IZR.
    apply Rmult_lt_reg_r with (bpow radix2 104); [apply bpow_gt_0|].
    rewrite <- (Rabs_pos_eq (bpow radix2 104)) at 1 by apply bpow_ge_0. rewrite <- Rabs_mult, <- E2.
    change (IZR (2 ^ 24)) with (bpow radix2 24). rewrite <- bpow_plus. exact B.
Qed.

Lemma rnd32_single v : Rabs (rnd32 v) < bpow radix2 128 -> single (rnd32 v).
Proof. intros B. apply format_single; [|exact B]. apply generic_format_round; typeclasses eauto. Qed.

Lemma rnd32_nearest v g : single g -> Rabs (rnd32 v - v) <= Rabs (g - v).
Proof.
  intros H. apply single_format in H as [G _].
  destruct (round_N_pt radix2 fexp32 (fun x => negb (Z.even x)) v) as [_ N]. apply N. exact G.
Qed.

Lemma rnd32_id v : single v -> rnd32 v = v.
Proof. intros H. apply single_format in H as [G _]. now apply round_generic; [typeclasses eauto|]. Qed.

Lemma largest_format : generic_format radix2 fexp32 largest_single.
Proof.
  unfold largest_single. apply (generic_format_FLT radix2 (-149) 24).
  apply (FLT_spec radix2 (-149) 24 _ (Float radix2 (2 ^ 24 - 1) 104)).
  - unfold F2R. cbn [Fnum Fexp]. rewrite minus_IZR. change (IZR (2 ^ 24)) with (bpow radix2 24).
    rewrite Rmult_minus_distr_r, <- bpow_plus. change (24 + 104)%Z with 128%Z. lra.
  - reflexivity.
  - cbn. lia.
Qed.

Lemma rnd32_range v : Rabs v <= largest_single -> Rabs (rnd32 v) <= largest_single.
Proof. intros H. apply abs_round_le_generic; [typeclasses eauto..|exact largest_format|exact H]. Qed.

Lemma largest_lt : largest_single < bpow radix2 128.
Proof. unfold largest_single. pose proof (bpow_gt_0 radix2 104). lra. Qed.

Lemma rnd32_error x : exists e h, Rabs e <= bpow radix2 (-24) /\ Rabs h <= bpow radix2 (-150) /\
  rnd32 x = x * (1 + e) + h.
Proof.
  destruct (relative_error_N_FLT'_ex radix2 (-149) 24 ltac:(lia) (fun x => negb (Z.even x)) x)
    as (e & h & He & Hh & _ & E).
  exists e, h. split; [|split; [|exact E]].
  - eapply Rle_trans; [exact He|].
    assert (U : u_ro radix2 24 = bpow radix2 (-24)).
    { unfold u_ro. change (/ 2) with (bpow radix2 (-1)). rewrite <- bpow_plus. reflexivity. }
    rewrite U. pose proof (bpow_gt_0 radix2 (-24)) as P.
    apply Rmult_le_reg_r with (1 + bpow radix2 (-24)); [lra|]. unfold Rdiv.
    rewrite Rmult_assoc, Rinv_l by lra. nra.
  - change (bpow radix2 (-150)) with (bpow radix2 (-1 + -149)). rewrite bpow_plus. exact Hh.
Qed.

Lemma single_small v : Rabs v <= bpow radix2 120 -> Rabs (rnd32 v) <= bpow radix2 120.
Proof.
  intros H. apply abs_round_le_generic; [typeclasses eauto..| |exact H]. apply generic_format_bpow. cbn. lia.
Qed.

Lemma double_small v : Rabs v <= bpow radix2 120 -> Rabs (rnd v) <= bpow radix2 120.
Proof.
  intros H. apply abs_round_le_generic; [typeclasses eauto..| |exact H]. apply generic_format_bpow. cbn. lia.
Qed.

(** ** Sums that are stored in single precision after every addition *)
Definition del : R := bpow radix2 (-23).
Definition eta32 : R := bpow radix2 (-150).

Lemma del_pos : 0 < del. Proof. apply bpow_gt_0. Qed.
Lemma eta32_pos : 0 < eta32. Proof. apply bpow_gt_0. Qed.

Lemma two_roundings e1 e2 : Rabs e1 <= uro -> Rabs e2 <= bpow radix2 (-24) -> Rabs ((1 + e1) * (1 + e2) - 1) <= del.
Proof.
  intros H1 H2. replace ((1 + e1) * (1 + e2) - 1) with (e1 + e2 + e1 * e2) by ring.
  eapply Rle_trans; [apply Rabs_triang|]. pose proof (Rabs_triang e1 e2) as T. rewrite Rabs_mult.
  assert (U : uro <= bpow radix2 (-26)) by (apply bpow_le; lia).
  assert (E4 : bpow radix2 (-24) = 4 * bpow radix2 (-26)).
  { change (-24)%Z with (2 + -26)%Z. rewrite bpow_plus. reflexivity. }
  assert (E8 : del = 8 * bpow radix2 (-26)).
  { unfold del. change (-23)%Z with (3 + -26)%Z. rewrite bpow_plus. reflexivity. }
  assert (M : Rabs e1 * Rabs e2 <= bpow radix2 (-26) * 1).
  { apply Rmult_le_compat; try apply Rabs_pos; [lra|]. eapply Rle_trans; [exact H2|].
    change 1 with (bpow radix2 0). apply bpow_le. lia. }
  pose proof (bpow_gt_0 radix2 (-26)). lra.
Qed.

Lemma add_single (a t : f64) v w : f64_is a v -> f64_is t w -> Rabs (v + w) <= bpow radix2 120 ->
  exists d h, f64_is (to_single (fadd a t)) ((v + w) * (1 + d) + h) /\ single ((v + w) * (1 + d) + h) /\
    Rabs d <= del /\ Rabs h <= eta32 /\ (0 <= v + w -> 0 <= (v + w) * (1 + d) + h).
Proof.
  intros Ha Ht B.
  assert (B1 : Rabs (v + w) <= bpow radix2 1000) by (eapply Rle_trans; [exact B|apply bpow_le; lia]).
  pose proof (add_is a t v w Ha Ht B1) as Hs. pose proof (double_small _ B) as B2.
  pose proof (single_small _ B2) as B3.
  assert (B4 : Rabs (rnd32 (rnd (v + w))) < bpow radix2 128).
  { eapply Rle_lt_trans; [exact B3|]. apply bpow_lt. lia. }
  pose proof (to_single_is _ _ Hs B4) as H32. pose proof (rnd32_single _ B4) as S32.
  destruct (add_error v w (fmt_of _ _ Ha) (fmt_of _ _ Ht)) as (e1 & He1 & E1).
  pose proof err_le_uro as EU.
  destruct (rnd32_error (rnd (v + w))) as (e2 & h & He2 & Hh & E2).
  exists ((1 + e1) * (1 + e2) - 1), h.
  assert (EE : rnd32 (rnd (v + w)) = (v + w) * (1 + ((1 + e1) * (1 + e2) - 1)) + h).
  { rewrite E2, E1. ring. }
  rewrite <- EE. split; [exact H32|]. split; [exact S32|]. split; [apply two_roundings; lra|].
  split; [exact Hh|]. intros P. rewrite <- rnd32_0. apply round_le; [typeclasses eauto..|].
  rewrite <- rnd_0. apply round_le; [typeclasses eauto..|exact P].
Qed.

Definition fold_single (ts : list f64) (a : f64) : f64 := fold_left (fun a t => to_single (fadd a t)) ts a.

Lemma pow_del_ge n : 1 <= (1 + del) ^ n.
Proof. pose proof del_pos. apply pow_R1_Rle. lra. Qed.

Lemma fold_single_error ts vs : Forall2 f64_is ts vs -> forall a v, f64_is a v -> single v ->
  (1 + del) ^ length ts * (Rabs v + asum vs + INR (length ts) * eta32) <= bpow radix2 120 ->
  exists s, f64_is (fold_single ts a) s /\ single s /\
    Rabs (s - (v + rsum vs)) <= ((1 + del) ^ length ts - 1) * (Rabs v + asum vs)
                                + INR (length ts) * (1 + del) ^ length ts * eta32 /\
    (0 <= v -> Forall (fun t => 0 <= t) vs -> 0 <= s).
Proof.
  pose proof del_pos as D0. pose proof eta32_pos as E0.
  induction 1 as [|t w ts vs Ht _ IH]; intros a v Ha Sv HB.
  - exists v. split; [exact Ha|]. split; [exact Sv|]. split; [|intros; assumption].
    unfold asum. cbn. replace (v - (v + 0)) with 0 by ring. rewrite Rabs_R0. lra.
  - cbn [length pow] in HB. rewrite S_INR, asum_cons in HB.
    set (n := length ts) in *. set (P := (1 + del) ^ n) in *.
    pose proof (pow_del_ge n) as P1. fold P in P1. pose proof (asum_nonneg vs) as A0.
    pose proof (pos_INR n) as N0. pose proof (Rabs_pos v) as V0. pose proof (Rabs_pos w) as W0.
    pose proof (Rabs_triang v w) as T.
    assert (Nn : 0 <= INR n * eta32) by (apply Rmult_le_pos; lra).
    set (X := Rabs v + Rabs w) in *.
    assert (B1 : Rabs (v + w) <= bpow radix2 120).
    { apply Rle_trans with (1 * X); [lra|].
      apply Rle_trans with ((1 + del) * P * (Rabs v + (Rabs w + asum vs) + (INR n + 1) * eta32)); [|exact HB].
      apply Rmult_le_compat; unfold X in *; try nra. }
    destruct (add_single a t v w Ha Ht B1) as (d & h & H1 & S1 & Hd & Hh & Hp).
    set (v1 := (v + w) * (1 + d) + h) in *.
    assert (E1 : Rabs (v1 - (v + w)) <= del * X + eta32).
    { unfold v1. replace ((v + w) * (1 + d) + h - (v + w)) with ((v + w) * d + h) by ring.
      eapply Rle_trans; [apply Rabs_triang|]. rewrite Rabs_mult. apply Rplus_le_compat; [|exact Hh].
      rewrite Rmult_comm. apply Rmult_le_compat; try apply Rabs_pos; [exact Hd|exact T]. }
    assert (V1 : Rabs v1 <= (1 + del) * X + eta32).
    { replace v1 with ((v + w) + (v1 - (v + w))) by ring. eapply Rle_trans; [apply Rabs_triang|]. lra. }
    destruct (IH _ v1 H1 S1) as (s & Hs & Ss & Es & Ps).
    { eapply Rle_trans; [|exact HB].
      replace ((1 + del) * P * (Rabs v + (Rabs w + asum vs) + (INR n + 1) * eta32))
        with (P * ((1 + del) * (X + asum vs + (INR n + 1) * eta32))) by (unfold X; ring).
      apply Rmult_le_compat_l; [lra|].
      assert (0 <= del * (asum vs + (INR n + 1) * eta32)) by (apply Rmult_le_pos; [lra|]; nra). lra. }
    exists s. split; [exact Hs|]. split; [exact Ss|]. split.
    + cbn [rsum length pow]. rewrite S_INR, asum_cons. fold n P.
      replace (s - (v + (w + rsum vs))) with ((s - (v1 + rsum vs)) + (v1 - (v + w))) by ring.
      eapply Rle_trans; [apply Rabs_triang|].
      assert (M : (P - 1) * (Rabs v1 + asum vs) <= (P - 1) * ((1 + del) * X + eta32 + asum vs)).
      { apply Rmult_le_compat_l; lra. }
      assert (Q1 : 0 <= P * del * asum vs) by (repeat apply Rmult_le_pos; lra).
      assert (Q2 : 0 <= (INR n + 1) * (P * del * eta32)) by (repeat apply Rmult_le_pos; lra).
      replace (((1 + del) * P - 1) * (Rabs v + (Rabs w + asum vs)) + (INR n + 1) * ((1 + del) * P) * eta32)
        with ((del * X + eta32) + ((P - 1) * ((1 + del) * X + eta32 + asum vs) + INR n * P * eta32)
              + P * del * asum vs + (INR n + 1) * (P * del * eta32)) by (unfold X; ring).
      lra.
    + intros Pv Pl. inversion Pl as [|? ? Pw Pl']; subst. apply Ps; [|exact Pl']. apply Hp. lra.
Qed.

Lemma pow_del_bound n : INR n * del <= / 2 -> (1 + del) ^ n <= 1 + 2 * INR n * del.
Proof.
  pose proof del_pos as U. induction n as [|n IH]; intros H; [cbn; lra|].
  rewrite S_INR in *. assert (0 <= INR n) by apply pos_INR.
  assert (P : 0 <= INR n * del) by (apply Rmult_le_pos; lra).
  assert (IH' := IH ltac:(lra)). cbn [pow].
  apply Rle_trans with ((1 + del) * (1 + 2 * INR n * del)).
  - apply Rmult_le_compat_l; lra.
  - nra.
Qed.
