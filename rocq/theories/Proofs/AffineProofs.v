(** Proofs about AffineWCS. *)
From Coq Require Import ZArith List Bool Reals Lia Lra SpecFloat.
From Flocq Require Import Core Plus_error.
From Verif Require Import Lib.Base Lib.Floats Model.Affine Spec.AffineSpec Spec.FloatSpec
  Proofs.F64Facts.
Open Scope R_scope.

Lemma affine_wcs_cases : forall a b c d px py : R,
  affine_wcs a b c d px py =
  if Req_EM_T (a * d - b * c) 0 then Raise ValueError
  else Ok (mk_affine a b c d px py (a * d - c * b)).
Proof.
  intros. unfold affine_wcs. cbn. unfold Reqb.
  destruct (Req_EM_T (a * d - c * b) 0) as [H|H];
    destruct (Req_EM_T (a * d - b * c) 0) as [K|K]; try reflexivity; exfalso; lra.
Qed.

Lemma affine_image2sky : forall a b c d px py w x y,
  affine_wcs a b c d px py = Ok w ->
  image2sky w x y = (affine_u a b px py x y, affine_u c d px py x y).
Proof.
  intros a b c d px py w x y. rewrite affine_wcs_cases.
  destruct (Req_EM_T _ _); intros H; inversion H; subst. reflexivity.
Qed.

Lemma affine_round_image : forall a b c d px py (w : affine R) x y,
  affine_wcs a b c d px py = Ok w ->
  (let '(u, v) := image2sky w x y in sky2image w u v) = (x, y).
Proof.
  intros a b c d px py w x y. rewrite affine_wcs_cases.
  destruct (Req_EM_T _ _) as [|Hd]; intros H; inversion H; subst.
  unfold sky2image, image2sky, fneg, fzero. cbn.
  assert (a * d - c * b <> 0) by lra. f_equal; field; assumption.
Qed.

Lemma affine_round_sky : forall a b c d px py (w : affine R) u v,
  affine_wcs a b c d px py = Ok w ->
  (let '(x, y) := sky2image w u v in image2sky w x y) = (u, v).
Proof.
  intros a b c d px py w u v. rewrite affine_wcs_cases.
  destruct (Req_EM_T _ _) as [|Hd]; intros H; inversion H; subst.
  unfold sky2image, image2sky, fneg, fzero. cbn.
  assert (a * d - c * b <> 0) by lra. f_equal; field; assumption.
Qed.

Lemma affine_partials : forall a b px py x y, partials (affine_u a b px py) x y a b.
Proof.
  intros. unfold affine_u. split; intros eps He; exists (mkposreal 1 Rlt_0_1); intros h Hh _.
  - replace ((a * (x + h - px) + b * (y - py) - (a * (x - px) + b * (y - py))) / h - a) with 0
      by (field; assumption). rewrite Rabs_R0. assumption.
  - replace ((a * (x - px) + b * (y + h - py) - (a * (x - px) + b * (y - py))) / h - b) with 0
      by (field; assumption). rewrite Rabs_R0. assumption.
Qed.

Lemma partials_unique : forall f x y a b a' b',
  partials f x y a b -> partials f x y a' b' -> a = a' /\ b = b'.
Proof.
  intros f x y a b a' b' [H1 H2] [H3 H4].
  split; eapply uniqueness_limite; eassumption.
Qed.

#[local] Instance fexp64_valid : Valid_exp fexp64.
Proof. apply (BinarySingleNaN.fexp_correct 53 1024). reflexivity. Qed.
#[local] Instance fexp64_monotone : Monotone_exp fexp64.
Proof. apply (BinarySingleNaN.fexp_monotone 53 1024). Qed.

Lemma rnd_sub_zero : forall v w, generic_format radix2 fexp64 v -> generic_format radix2 fexp64 w ->
  (rnd (v - w) = 0 <-> v = w).
Proof.
  intros v w Hv Hw. split; intros H.
  - destruct (Req_EM_T v w) as [E|E]; [exact E|]. exfalso.
    unfold Rminus in H.
    assert (K : rnd (v + - w) <> 0); [|contradiction].
    apply (Plus_error.round_plus_neq_0 radix2 fexp64 ZnearestE v (- w)); try assumption.
    + apply generic_format_opp. assumption.
    + lra.
  - replace (v - w) with 0 by lra. apply round_0. typeclasses eauto.
Qed.

Lemma rnd_le_60 : forall v, Rabs v <= bpow radix2 60 -> Rabs (rnd v) <= bpow radix2 60.
Proof.
  intros v H. apply abs_round_le_generic; [typeclasses eauto..| |assumption].
  apply generic_format_bpow. cbn. lia.
Qed.

Lemma affine_double : forall (a b c d px py : f64) (va vb vc vd : R),
  f64_is a va -> f64_is b vb -> f64_is c vc -> f64_is d vd ->
  Rabs (va * vd) <= bpow radix2 58 -> Rabs (vb * vc) <= bpow radix2 58 ->
  (affine_wcs a b c d px py = Raise ValueError <-> rnd64 (va * vd) = rnd64 (vb * vc)).
Proof.
  intros a b c d px py va vb vc vd Ha Hb Hc Hd B1 B2.
  rewrite Rmult_comm in B2.
  assert (W : bpow radix2 58 <= bpow radix2 60) by (apply bpow_le; lia).
  assert (W2 : bpow radix2 58 + bpow radix2 58 <= bpow radix2 60).
  { replace (bpow radix2 60) with (4 * bpow radix2 58); [generalize (bpow_ge_0 radix2 58); lra|].
    change 60%Z with (2 + 58)%Z. rewrite bpow_plus. reflexivity. }
  pose proof (f64_mul_is a d va vd Ha Hd ltac:(lra)) as M1.
  pose proof (f64_mul_is c b vc vb Hc Hb ltac:(lra)) as M2.
  assert (N1 : Rabs (rnd (va * vd)) <= bpow radix2 58).
  { apply abs_round_le_generic; [typeclasses eauto..| |assumption]. apply generic_format_bpow. cbn. lia. }
  assert (N2 : Rabs (rnd (vc * vb)) <= bpow radix2 58).
  { apply abs_round_le_generic; [typeclasses eauto..| |assumption]. apply generic_format_bpow. cbn. lia. }
  assert (B3 : Rabs (rnd (va * vd) - rnd (vc * vb)) <= bpow radix2 60).
  { eapply Rle_trans; [apply Rabs_triang|]. rewrite Rabs_Ropp. lra. }
  pose proof (f64_sub_is _ _ _ _ M1 M2 B3) as S.
  pose proof (f64_eqb_is _ _ _ _ S (f64_ofZ_is 0 ltac:(lia))) as E.
  rewrite rnd_sub_zero in E; [|apply generic_format_round; typeclasses eauto..].
  unfold affine_wcs, fzero. cbn -[f64_ofZ].
  unfold rnd64. change (Generic_fmt.round radix2 (SpecFloat.fexp 53 1024) ZnearestE) with rnd.
  rewrite (Rmult_comm vb vc).
  destruct (SFeqb _ _); split; intros K.
  - apply E. reflexivity.
  - reflexivity.
  - discriminate.
  - apply E in K. discriminate.
Qed.
