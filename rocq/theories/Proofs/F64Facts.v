(** Facts about the IEEE-754 binary64 instance, obtained by connecting the
    standard library's [SpecFloat] with Flocq's real-number semantics. *)
From Coq Require Import ZArith Reals SpecFloat Lia Lra Bool.
From Flocq Require Import Core BinarySingleNaN Relative.
From Verif Require Import Lib.Floats.
From Verif Require Export Spec.FloatSpec.
Open Scope Z_scope.

#[local] Instance Hprec : Prec_gt_0 53 := eq_refl _.
#[local] Instance Hmax : Prec_lt_emax 53 1024 := eq_refl _.

Notation bf := (binary_float 53 1024).
Notation fexp64 := (SpecFloat.fexp 53 1024).
Notation rnd := (Generic_fmt.round radix2 fexp64 ZnearestE).

#[local] Instance fexp64_valid : Valid_exp fexp64 := fexp_correct 53 1024 _.
#[local] Instance fexp64_mono : Monotone_exp fexp64 := fexp_monotone 53 1024.

Lemma round_nearest_even_equiv s m l :
  round_nearest_even m l = choice_mode mode_NE s m l.
Proof.
  case l; [reflexivity|intro c]. case c; [ | reflexivity..].
  now simpl; unfold Round.cond_incr; case Z.even.
Qed.

Lemma binary_round_aux_equiv sx mx ex lx :
  SpecFloat.binary_round_aux 53 1024 sx mx ex lx
  = binary_round_aux 53 1024 mode_NE sx mx ex lx.
Proof.
  unfold SpecFloat.binary_round_aux, binary_round_aux.
  set (mrse' := shr_fexp _ _ _ _ _). case mrse'; intros mrs' e'; simpl.
  now rewrite (round_nearest_even_equiv sx).
Qed.

Lemma binary_round_equiv s m e :
  SpecFloat.binary_round 53 1024 s m e = binary_round 53 1024 mode_NE s m e.
Proof.
  unfold SpecFloat.binary_round, binary_round, shl_align_fexp.
  set (mez := shl_align _ _ _); case mez as [mz ez].
  apply binary_round_aux_equiv.
Qed.

Definition Bnorm (m e : Z) : bf := binary_normalize 53 1024 _ _ mode_NE m e false.

Lemma binary_normalize_equiv m e :
  SpecFloat.binary_normalize 53 1024 m e false = B2SF (Bnorm m e).
Proof.
  unfold Bnorm. case m as [ | p | p]; simpl.
  - reflexivity.
  - rewrite B2SF_SF2B; apply binary_round_equiv.
  - rewrite B2SF_SF2B; apply binary_round_equiv.
Qed.

Lemma SFadd_equiv (x y : bf) :
  SFadd 53 1024 (B2SF x) (B2SF y) = B2SF (Bplus mode_NE x y).
Proof.
  destruct x as [sx|sx| |sx mx ex Bx]; destruct y as [sy|sy| |sy my ey By];
    try (simpl; now (trivial || case Bool.eqb)).
  simpl. apply (binary_normalize_equiv _ _).
Qed.

Lemma SFsub_equiv (x y : bf) :
  SFsub 53 1024 (B2SF x) (B2SF y) = B2SF (Bminus mode_NE x y).
Proof.
  destruct x as [sx|sx| |sx mx ex Bx]; destruct y as [sy|sy| |sy my ey By];
    try (simpl; now (trivial || case Bool.eqb)).
  simpl. unfold Zminus. rewrite <- cond_Zopp_negb. apply (binary_normalize_equiv _ _).
Qed.

Lemma SFmul_equiv (x y : bf) :
  SFmul 53 1024 (B2SF x) (B2SF y) = B2SF (Bmult mode_NE x y).
Proof.
  destruct x as [sx|sx| |sx mx ex Bx]; destruct y as [sy|sy| |sy my ey By];
    try (simpl; now (trivial || case Bool.eqb)).
  simpl. rewrite B2SF_SF2B. apply binary_round_aux_equiv.
Qed.

Lemma SFdiv_equiv (x y : bf) :
  SFdiv 53 1024 (B2SF x) (B2SF y) = B2SF (Bdiv mode_NE x y).
Proof.
  destruct x as [sx|sx| |sx mx ex Bx]; destruct y as [sy|sy| |sy my ey By];
    try (simpl; now (trivial || case Bool.eqb)).
  simpl. rewrite B2SF_SF2B.
  set (melz := SFdiv_core_binary _ _ _ _ _ _). case melz as [[mz ez] lz].
  apply binary_round_aux_equiv.
Qed.

Lemma finite_B2SF (x : bf) : f64_finite (B2SF x) = is_finite x.
Proof. now destruct x. Qed.

Lemma f64_is_B x v : f64_is x v -> exists b : bf, x = B2SF b /\ is_finite b = true /\ B2R b = v.
Proof.
  intros (H1 & H2 & H3). exists (SF2B x H1).
  rewrite B2SF_SF2B. split; [reflexivity|]. split.
  - rewrite is_finite_SF2B. now destruct x.
  - now rewrite B2R_SF2B.
Qed.

Lemma B_f64_is (b : bf) : is_finite b = true -> f64_is (B2SF b) (B2R b).
Proof.
  intros H. repeat split.
  - apply valid_binary_B2SF.
  - now rewrite finite_B2SF.
  - unfold f64_val. apply SF2R_B2SF.
Qed.

(** Integers and half-integers of moderate size are representable. *)

Lemma half_format (n : Z) :
  Z.abs n <= 2 ^ 53 -> generic_format radix2 fexp64 (IZR n / 2).
Proof.
  intros H.
  destruct (Z.eq_dec n 0) as [->|Hn].
  { unfold Rdiv. rewrite Rmult_0_l. apply generic_format_0. }
  destruct (Z.eq_dec (Z.abs n) (2 ^ 53)) as [E|E].
  - assert (Hv : (IZR n / 2 = IZR (Z.sgn n) * bpow radix2 52)%R).
    { replace n with (Z.sgn n * 2 ^ 53) at 1 by lia.
      rewrite mult_IZR. change (bpow radix2 52) with (IZR (2 ^ 52)).
      change (2 ^ 53) with (2 * 2 ^ 52). rewrite mult_IZR. field. }
    rewrite Hv.
    destruct (Z.lt_trichotomy n 0) as [L|[L|L]]; [|lia|].
    + replace (Z.sgn n) with (-1) by lia.
      replace (-1 * bpow radix2 52)%R with (- bpow radix2 52)%R by ring.
      apply generic_format_opp. apply generic_format_bpow. unfold fexp64. cbn. lia.
    + replace (Z.sgn n) with 1 by lia. rewrite Rmult_1_l.
      apply generic_format_bpow. cbn. lia.
  - apply generic_format_FLT with (prec := 53) (emin := (3 - 1024 - 53)).
    exists (Float radix2 n (-1)).
    + unfold F2R; cbn. unfold Rdiv. reflexivity.
    + cbn. lia.
    + cbn. lia.
Qed.

Lemma int_format (n : Z) :
  Z.abs n <= 2 ^ 53 -> generic_format radix2 fexp64 (IZR n).
Proof.
  intros H.
  destruct (Z.eq_dec (Z.abs n) (2 ^ 53)) as [E|E].
  - destruct (Z.lt_trichotomy n 0) as [L|[L|L]]; [|lia|].
    + replace n with (- 2 ^ 53) by lia. rewrite opp_IZR.
      apply generic_format_opp. change (IZR (2 ^ 53)) with (bpow radix2 53).
      apply generic_format_bpow. cbn. lia.
    + replace n with (2 ^ 53) by lia. change (IZR (2 ^ 53)) with (bpow radix2 53).
      apply generic_format_bpow. cbn. lia.
  - apply generic_format_FLT with (prec := 53) (emin := (3 - 1024 - 53)).
    exists (Float radix2 n 0).
    + unfold F2R; cbn. now rewrite Rmult_1_r.
    + cbn. lia.
    + cbn. lia.
Qed.

Lemma rnd_id v : generic_format radix2 fexp64 v -> rnd v = v.
Proof. intros H. apply round_generic; [typeclasses eauto|assumption]. Qed.

Lemma small_no_overflow v : (Rabs v <= bpow radix2 60)%R -> (Rabs (rnd v) < bpow radix2 1024)%R.
Proof.
  intros H. apply Rle_lt_trans with (bpow radix2 60).
  - apply abs_round_le_generic; [typeclasses eauto..| |assumption].
    apply generic_format_bpow. cbn. lia.
  - apply bpow_lt. lia.
Qed.

(** ** Operation lemmas: a datum of value [v] for every operation whose exact
    result is representable. *)

Lemma f64_add_is x y v w :
  f64_is x v -> f64_is y w -> (Rabs (v + w) <= bpow radix2 60)%R ->
  f64_is (SFadd 53 1024 x y) (rnd (v + w)).
Proof.
  intros Hx Hy Hb.
  apply f64_is_B in Hx as (bx & -> & Fx & <-). apply f64_is_B in Hy as (b & -> & Fy & <-).
  rewrite SFadd_equiv.
  generalize (Bplus_correct 53 1024 _ _ mode_NE bx b Fx Fy).
  rewrite Rlt_bool_true by now apply small_no_overflow.
  intros (H1 & H2 & _). cbn in H1. rewrite <- H1. now apply B_f64_is.
Qed.

Lemma f64_sub_is x y v w :
  f64_is x v -> f64_is y w -> (Rabs (v - w) <= bpow radix2 60)%R ->
  f64_is (SFsub 53 1024 x y) (rnd (v - w)).
Proof.
  intros Hx Hy Hb.
  apply f64_is_B in Hx as (bx & -> & Fx & <-). apply f64_is_B in Hy as (b & -> & Fy & <-).
  rewrite SFsub_equiv.
  generalize (Bminus_correct 53 1024 _ _ mode_NE bx b Fx Fy).
  rewrite Rlt_bool_true by now apply small_no_overflow.
  intros (H1 & H2 & _). cbn in H1. rewrite <- H1. now apply B_f64_is.
Qed.

Lemma f64_mul_is x y v w :
  f64_is x v -> f64_is y w -> (Rabs (v * w) <= bpow radix2 60)%R ->
  f64_is (SFmul 53 1024 x y) (rnd (v * w)).
Proof.
  intros Hx Hy Hb.
  apply f64_is_B in Hx as (bx & -> & Fx & <-). apply f64_is_B in Hy as (b & -> & Fy & <-).
  rewrite SFmul_equiv.
  generalize (Bmult_correct 53 1024 _ _ mode_NE bx b).
  rewrite Rlt_bool_true by now apply small_no_overflow.
  intros (H1 & H2 & _). cbn in H1. rewrite <- H1. apply B_f64_is.
  rewrite H2, Fx, Fy. reflexivity.
Qed.

Lemma f64_div_is x y v w :
  f64_is x v -> f64_is y w -> w <> 0%R -> (Rabs (v / w) <= bpow radix2 60)%R ->
  f64_is (SFdiv 53 1024 x y) (rnd (v / w)).
Proof.
  intros Hx Hy Hw Hb.
  apply f64_is_B in Hx as (bx & -> & Fx & <-). apply f64_is_B in Hy as (b & -> & Fy & <-).
  rewrite SFdiv_equiv.
  generalize (Bdiv_correct 53 1024 _ _ mode_NE bx b Hw).
  rewrite Rlt_bool_true by now apply small_no_overflow.
  intros (H1 & H2 & _). cbn in H1. rewrite <- H1. apply B_f64_is.
  now rewrite H2, Fx.
Qed.

Lemma f64_ofZ_is n : Z.abs n <= 2 ^ 53 -> f64_is (f64_ofZ n) (IZR n).
Proof.
  intros H. unfold f64_ofZ. rewrite binary_normalize_equiv.
  generalize (binary_normalize_correct 53 1024 _ _ mode_NE n 0 false).
  assert (E : F2R (Float radix2 n 0) = IZR n).
  { unfold F2R; cbn. apply Rmult_1_r. }
  cbv zeta. rewrite E. change (round_mode mode_NE) with ZnearestE.
  rewrite rnd_id by now apply int_format.
  rewrite Rlt_bool_true.
  - intros (H1 & H2 & _). rewrite <- H1. now apply B_f64_is.
  - rewrite <- abs_IZR. apply Rle_lt_trans with (IZR (2 ^ 53)).
    + now apply IZR_le.
    + change (IZR (2 ^ 53)) with (bpow radix2 53). apply bpow_lt. lia.
Qed.

Lemma f64_eqb_is x y v w :
  f64_is x v -> f64_is y w -> SFeqb x y = true <-> v = w.
Proof.
  intros Hx Hy.
  apply f64_is_B in Hx as (bx & -> & Fx & <-). apply f64_is_B in Hy as (b & -> & Fy & <-).
  change (SFeqb (B2SF bx) (B2SF b)) with (Beqb bx b).
  rewrite Beqb_correct by assumption. case Req_bool_spec; intros; split; congruence.
Qed.

Lemma f64_ltb_is x y v w :
  f64_is x v -> f64_is y w -> SFltb x y = true <-> (v < w)%R.
Proof.
  intros Hx Hy.
  apply f64_is_B in Hx as (bx & -> & Fx & <-). apply f64_is_B in Hy as (b & -> & Fy & <-).
  change (SFltb (B2SF bx) (B2SF b)) with (Bltb bx b).
  rewrite Bltb_correct by assumption. case Rlt_bool_spec; intros; split; (congruence || lra).
Qed.

Lemma f64_leb_is x y v w :
  f64_is x v -> f64_is y w -> SFleb x y = true <-> (v <= w)%R.
Proof.
  intros Hx Hy.
  apply f64_is_B in Hx as (bx & -> & Fx & <-). apply f64_is_B in Hy as (b & -> & Fy & <-).
  change (SFleb (B2SF bx) (B2SF b)) with (Bleb bx b).
  rewrite Bleb_correct by assumption. case Rle_bool_spec; intros; split; (congruence || lra).
Qed.

(** Truncation and floor of a finite datum. *)

Lemma f64_val_finite s m e :
  f64_val (S754_finite s m e) = (IZR (cond_Zopp s (Zpos m)) * bpow radix2 e)%R.
Proof. reflexivity. Qed.

Lemma Zfloor_scaled (m e : Z) :
  Zfloor (IZR m * bpow radix2 e) = if 0 <=? e then m * 2 ^ e else m / 2 ^ (- e).
Proof.
  destruct (Z.leb_spec 0 e) as [He|He].
  - rewrite <- (IZR_Zpower radix2) by assumption. rewrite <- mult_IZR.
    apply Zfloor_IZR.
  - replace (bpow radix2 e) with (/ IZR (2 ^ (- e)))%R.
    + change (IZR m * / IZR (2 ^ (- e)))%R with (IZR m / IZR (2 ^ (- e)))%R.
      apply Zfloor_div. apply Z.pow_nonzero; lia.
    + replace e with (- (- e)) at 2 by lia. rewrite bpow_opp.
      f_equal. apply (IZR_Zpower radix2). lia.
Qed.

Lemma f64_floor_is x v : f64_is x v -> f64_floor x = Some (Zfloor v).
Proof.
  intros (Hv & Hf & <-). destruct x as [s|s| |s m e]; try discriminate Hf.
  - cbn. f_equal. symmetry. apply (Zfloor_IZR 0).
  - rewrite f64_val_finite, Zfloor_scaled. now destruct s.
Qed.

Lemma f64_trunc_is x v : f64_is x v -> f64_trunc x = Some (Ztrunc v).
Proof.
  intros (Hv & Hf & <-). destruct x as [s|s| |s m e]; try discriminate Hf.
  - cbn. f_equal. symmetry. apply (Ztrunc_IZR 0).
  - rewrite f64_val_finite. cbn [f64_trunc]. f_equal.
    pose proof (bpow_gt_0 radix2 e) as Hb.
    destruct s; cbn [cond_Zopp].
    + rewrite opp_IZR, Ropp_mult_distr_l_reverse, Ztrunc_opp.
      rewrite Ztrunc_floor.
      * now rewrite Zfloor_scaled.
      * apply Rmult_le_pos; [apply IZR_le; lia|lra].
    + rewrite Ztrunc_floor.
      * now rewrite Zfloor_scaled.
      * apply Rmult_le_pos; [apply IZR_le; lia|lra].
Qed.

(** ** The quotient of two integers, correctly rounded, is an integer exactly
    when the division is exact (numerators below 2^53). *)

Lemma rnd_quotient_integer (a b k : Z) :
  Z.abs a < 2 ^ 53 -> 0 < b <= 2 ^ 53 -> rnd (IZR a / IZR b) = IZR k -> a = k * b.
Proof.
  intros Ha Hb Hr.
  assert (Hb' : (0 < IZR b)%R) by (apply IZR_lt; lia).
  destruct (Z.eq_dec a 0) as [->|Ha0].
  { unfold Rdiv in Hr. rewrite Rmult_0_l, round_0 in Hr by typeclasses eauto.
    apply eq_IZR in Hr. lia. }
  destruct (Z.eq_dec a (k * b)) as [|Hne]; [assumption|exfalso].
  (* the integer floor(a/b) and its successor bracket the quotient *)
  set (x := (IZR a / IZR b)%R) in *.
  assert (Hx0 : x <> 0%R).
  { unfold x. apply Rmult_integral_contrapositive_currified.
    - apply IZR_neq. assumption.
    - apply Rinv_neq_0_compat. lra. }
  assert (Hxb : (x * IZR b = IZR a)%R) by (unfold x; field; lra).
  assert (Hdist : (/ IZR b <= Rabs (IZR k - x))%R).
  { replace (IZR k - x)%R with ((IZR (k * b - a)) / IZR b)%R.
    - unfold Rdiv. rewrite Rabs_mult, (Rabs_pos_eq (/ IZR b)).
      + rewrite <- (Rmult_1_l (/ IZR b)) at 1. apply Rmult_le_compat_r.
        * apply Rlt_le, Rinv_0_lt_compat. assumption.
        * rewrite <- abs_IZR. apply IZR_le. lia.
      + apply Rlt_le, Rinv_0_lt_compat. assumption.
    - rewrite minus_IZR, mult_IZR. unfold x. field. lra. }
  assert (Herr : (Rabs (rnd x - x) <= / 2 * bpow radix2 (- 53 + 1) * Rabs x)%R).
  { apply (relative_error_N_FLT radix2 (3 - 1024 - 53) 53 eq_refl (fun n => negb (Z.even n))).
    apply Rle_trans with (bpow radix2 (-53)); [apply bpow_le; lia|].
    unfold x, Rdiv. rewrite Rabs_mult, (Rabs_pos_eq (/ IZR b))
      by (apply Rlt_le, Rinv_0_lt_compat; assumption).
    rewrite <- (Rmult_1_l (bpow radix2 (-53))). apply Rmult_le_compat.
    - lra.
    - apply bpow_ge_0.
    - rewrite <- abs_IZR. apply IZR_le. lia.
    - change (bpow radix2 (-53)) with (/ IZR (2 ^ 53))%R.
      apply Rinv_le; [assumption|]. apply IZR_le. lia. }
  rewrite Hr in Herr.
  assert (Hax : (Rabs x = IZR (Z.abs a) / IZR b)%R).
  { unfold x, Rdiv. rewrite Rabs_mult, (Rabs_pos_eq (/ IZR b)).
    - now rewrite abs_IZR.
    - apply Rlt_le, Rinv_0_lt_compat. assumption. }
  rewrite Hax in Herr.
  assert (H53 : (/ 2 * bpow radix2 (- 53 + 1) = / IZR (2 ^ 53))%R).
  { change (-53 + 1) with (-52). cbn. lra. }
  rewrite H53 in Herr.
  assert (Hlt : (/ IZR (2 ^ 53) * (IZR (Z.abs a) / IZR b) < / IZR b)%R).
  { assert (IZR (Z.abs a) < IZR (2 ^ 53))%R by now apply IZR_lt.
    assert (0 < / IZR b)%R by now apply Rinv_0_lt_compat.
    unfold Rdiv. rewrite <- Rmult_assoc. rewrite <- (Rmult_1_l (/ IZR b)) at 2.
    apply Rmult_lt_compat_r; [assumption|].
    apply Rmult_lt_reg_l with (IZR (2 ^ 53)); [apply IZR_lt; reflexivity|].
    rewrite <- Rmult_assoc, Rinv_r, Rmult_1_l, Rmult_1_r; [assumption|].
    apply IZR_neq. discriminate. }
  lra.
Qed.
