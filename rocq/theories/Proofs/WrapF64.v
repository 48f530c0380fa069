(** wrap_ra_diff in IEEE double arithmetic. *)
From Coq Require Import ZArith List Bool Reals Lia Lra SpecFloat.
From Flocq Require Import Core BinarySingleNaN Relative.
From Verif Require Import Lib.Base Lib.Floats Model.Wrap Spec.WrapSpec Spec.FloatSpec
  Proofs.F64Facts Proofs.WrapProofs.
Open Scope R_scope.

#[local] Instance Hprec : Prec_gt_0 53 := eq_refl _.
#[local] Instance Hmax : Prec_lt_emax 53 1024 := eq_refl _.
#[local] Instance fexp64_valid' : Valid_exp fexp64 := fexp_correct 53 1024 _.
#[local] Instance fexp64_mono' : Monotone_exp fexp64 := fexp_monotone 53 1024.
Notation format := (generic_format radix2 fexp64).

Lemma f64_is_format x v : f64_is x v -> format v /\ Rabs v < bpow radix2 1024.
Proof.
  intros H. apply f64_is_B in H as (b & -> & Hf & <-). split.
  - apply generic_format_B2R.
  - apply abs_B2R_lt_emax.
Qed.

Lemma f64_add_gen x y v w :
  f64_is x v -> f64_is y w -> Rabs (rnd (v + w)) < bpow radix2 1024 ->
  f64_is (SFadd 53 1024 x y) (rnd (v + w)).
Proof.
  intros Hx Hy Hb.
  apply f64_is_B in Hx as (bx & -> & Fx & <-). apply f64_is_B in Hy as (b & -> & Fy & <-).
  rewrite SFadd_equiv.
  generalize (Bplus_correct 53 1024 _ _ mode_NE bx b Fx Fy).
  rewrite Rlt_bool_true by exact Hb.
  intros (H1 & H2 & _). cbn in H1. rewrite <- H1. now apply B_f64_is.
Qed.

Lemma f64_sub_gen x y v w :
  f64_is x v -> f64_is y w -> Rabs (rnd (v - w)) < bpow radix2 1024 ->
  f64_is (SFsub 53 1024 x y) (rnd (v - w)).
Proof.
  intros Hx Hy Hb.
  apply f64_is_B in Hx as (bx & -> & Fx & <-). apply f64_is_B in Hy as (b & -> & Fy & <-).
  rewrite SFsub_equiv.
  generalize (Bminus_correct 53 1024 _ _ mode_NE bx b Fx Fy).
  rewrite Rlt_bool_true by exact Hb.
  intros (H1 & H2 & _). cbn in H1. rewrite <- H1. now apply B_f64_is.
Qed.

Lemma rnd_mono x y : x <= y -> rnd x <= rnd y.
Proof. apply round_le; typeclasses eauto. Qed.

Lemma rnd_opp x : rnd (- x) = - rnd x.
Proof. apply round_NE_opp. Qed.

Lemma format_180 : format 180.
Proof. apply (int_format 180). lia. Qed.

(** Subtracting 360 from a value above 180. *)
Lemma sub_range v : format v -> 180 < v -> -180 <= rnd (v - 360) <= v.
Proof.
  intros Hf Hv. split.
  - rewrite <- (rnd_id (-180)) by (apply generic_format_opp; apply format_180). apply rnd_mono. lra.
  - rewrite <- (rnd_id v) at 2 by assumption. apply rnd_mono. lra.
Qed.

Lemma sub_step x v : f64_is x v -> 180 < v ->
  f64_is (SFsub 53 1024 x (f64_ofZ 360)) (rnd (v - 360)).
Proof.
  intros Hx Hv. destruct (f64_is_format _ _ Hx) as [Hf Hb].
  pose proof (sub_range v Hf Hv). apply f64_sub_gen; [assumption|apply (f64_ofZ_is 360); lia|].
  apply Rabs_def1.
  - apply Rle_lt_trans with v; [lra|]. now apply Rabs_def2 in Hb.
  - apply Rlt_le_trans with (-180); [|lra]. apply Rabs_def2 in Hb as [Hb _]. lra.
Qed.

Lemma add_rnd v : rnd (v + 360) = - rnd (- v - 360).
Proof. rewrite <- rnd_opp. f_equal. ring. Qed.

Lemma add_range v : format v -> v < -180 -> v <= rnd (v + 360) <= 180.
Proof.
  intros Hf Hv. rewrite add_rnd.
  pose proof (sub_range (- v) (generic_format_opp _ _ _ Hf) ltac:(lra)). lra.
Qed.

Lemma add_step x v : f64_is x v -> v < -180 ->
  f64_is (SFadd 53 1024 x (f64_ofZ 360)) (rnd (v + 360)).
Proof.
  intros Hx Hv. destruct (f64_is_format _ _ Hx) as [Hf Hb].
  pose proof (add_range v Hf Hv). apply f64_add_gen; [assumption|apply (f64_ofZ_is 360); lia|].
  apply Rabs_def2 in Hb. apply Rabs_def1; lra.
Qed.

(** Exact steps up to 2^56. *)
Lemma sub_exact v : format v -> 180 < v -> v <= bpow radix2 56 -> rnd (v - 360) = v - 360.
Proof.
  intros Hf Hv Hb. apply rnd_id.
  assert (Hm : exists m e, v = F2R (Float radix2 m e) /\ (-1074 <= e <= 3)%Z /\ (0 < m <= 2 ^ 53)%Z).
  { destruct (Rle_lt_or_eq_dec _ _ Hb) as [Hlt| ->].
    - exists (Ztrunc (scaled_mantissa radix2 fexp64 v)), (cexp radix2 fexp64 v).
      assert (Hmag : (mag radix2 v <= 56)%Z).
      { apply mag_le_bpow; [lra|]. rewrite Rabs_pos_eq by lra. assumption. }
      assert (He : (-1074 <= cexp radix2 fexp64 v <= 3)%Z).
      { unfold cexp, fexp64, SpecFloat.fexp, SpecFloat.emin. lia. }
      split; [exact Hf|]. split; [exact He|].
      assert (Hpos : 0 < F2R (Float radix2 (Ztrunc (scaled_mantissa radix2 fexp64 v))
                (cexp radix2 fexp64 v))) by (rewrite <- Hf; lra).
      apply gt_0_F2R in Hpos. cbn in Hpos. split; [assumption|].
      assert (Hs : (Z.abs (Ztrunc (scaled_mantissa radix2 fexp64 v)) < 2 ^ 53)%Z).
      { apply lt_IZR. rewrite abs_IZR. rewrite <- scaled_mantissa_generic by assumption.
        eapply Rlt_le_trans; [apply scaled_mantissa_lt_bpow|].
        change (IZR (2 ^ 53)) with (bpow radix2 53). apply bpow_le.
        unfold cexp, fexp64, SpecFloat.fexp, SpecFloat.emin. lia. }
      lia.
    - exists (2 ^ 53)%Z, 3%Z. split; [|lia]. unfold F2R. cbn [Fnum Fexp].
      change (IZR (2 ^ 53)) with (bpow radix2 53). rewrite <- bpow_plus. reflexivity. }
  destruct Hm as (m & e & -> & He & Hm0).
  assert (E360 : 360 = F2R (Float radix2 (45 * 2 ^ (3 - e)) e)).
  { unfold F2R. cbn [Fnum Fexp]. rewrite mult_IZR, (IZR_Zpower radix2) by lia.
    rewrite Rmult_assoc, <- bpow_plus. replace (3 - e + e)%Z with 3%Z by ring. cbn. lra. }
  assert (Ed : F2R (Float radix2 m e) - 360 = F2R (Float radix2 (m - 45 * 2 ^ (3 - e)) e)).
  { rewrite E360. unfold F2R. cbn [Fnum Fexp]. rewrite (minus_IZR m). ring. }
  rewrite Ed.
  apply generic_format_FLT with (prec := 53%Z) (emin := (3 - 1024 - 53)%Z).
  eexists; [reflexivity| |cbn; lia].
  cbn [Fnum]. change (Z.pow_pos 2 53) with (2 ^ 53)%Z.
  (* |m - 360/2^e| < m because 180 < m 2^e *)
  assert (H180 : (45 * 2 ^ (3 - e) < 2 * m)%Z).
  { apply lt_IZR. apply Rmult_lt_reg_r with (bpow radix2 e); [apply bpow_gt_0|].
    rewrite mult_IZR with (n := 2%Z). unfold F2R in *. cbn [Fnum Fexp] in *.
    rewrite <- E360. lra. }
  assert (0 < 2 ^ (3 - e))%Z by (apply Z.pow_pos_nonneg; lia).
  change (radix_val radix2 ^ 53)%Z with (2 ^ 53)%Z. lia.
Qed.

Lemma add_exact v : format v -> v < -180 -> - bpow radix2 56 <= v -> rnd (v + 360) = v + 360.
Proof.
  intros Hf Hv Hb. rewrite add_rnd. rewrite sub_exact; [ring| |lra|lra].
  now apply generic_format_opp.
Qed.

(** Lockstep simulation of loops. *)
Lemma while_sim {A B} (Rel : A -> B -> Prop) c s c' s' n : forall a b,
  Rel a b ->
  (forall a b, Rel a b -> c a = c' b) ->
  (forall a b, Rel a b -> c' b = true -> Rel (s a) (s' b)) ->
  match while_loop c s n a, while_loop c' s' n b with
  | Some x, Some y => Rel x y
  | None, None => True
  | _, _ => False
  end.
Proof.
  induction n as [|n IH]; intros a b H Hc Hs; cbn; rewrite (Hc a b H); destruct (c' b) eqn:E; auto.
  apply IH; auto.
Qed.

Lemma bool_eq_iff (b b' : bool) P : (b = true <-> P) -> (b' = true <-> P) -> b = b'.
Proof. destruct b, b'; intuition; exfalso; intuition discriminate. Qed.

Theorem wrap_f64_exact (x : f64) v n :
  f64_is x v -> Rabs v <= bpow radix2 56 ->
  match wrap_ra_diff n x, wrap_ra_diff n v with
  | Some y, Some w => f64_is y w
  | None, None => True
  | _, _ => False
  end.
Proof.
  intros Hx Hb. unfold wrap_ra_diff.
  cbn [ffinite F64Ops ROps negb fltb fadd fsub fofZ].
  assert (Hfin : f64_finite x = true) by apply Hx. rewrite Hfin. cbn [negb].
  pose (Rel := fun (a : f64) (b : R) => f64_is a b /\ Rabs b <= bpow radix2 56).
  assert (H56 : 1000 <= bpow radix2 56) by (change (bpow radix2 56) with (IZR (2 ^ 56)); apply IZR_le; lia).
  pose proof (while_sim Rel (fun x : f64 => SFltb x (f64_ofZ (-180))) (fun x : f64 => SFadd 53 1024 x (f64_ofZ 360))
    (fun x => Rltb x (-180)) (fun x => x + 360) n x v (conj Hx Hb)) as H1.
  assert (Hup1 : forall a0 b0, Rel a0 b0 -> SFltb a0 (f64_ofZ (-180)) = Rltb b0 (-180)).
  { intros a0 b0 [Ha _]. eapply bool_eq_iff; [|apply Rltb_true].
    apply (f64_ltb_is _ _ _ (-180) Ha). apply (f64_ofZ_is (-180)). lia. }
  assert (Hup2 : forall a0 b0, Rel a0 b0 -> Rltb b0 (-180) = true ->
            Rel (SFadd 53 1024 a0 (f64_ofZ 360)) (b0 + 360)).
  { intros a0 b0 [Ha Hab] Hlt. apply Rltb_true in Hlt.
    destruct (f64_is_format _ _ Ha) as [Hf _]. apply Rabs_le_inv in Hab. split.
    - rewrite <- (add_exact b0) by (assumption || lra). now apply add_step.
    - apply Rabs_le. lra. }
  assert (Hdn1 : forall a0 b0, Rel a0 b0 -> SFltb (f64_ofZ 180) a0 = Rltb 180 b0).
  { intros a0 b0 [Ha _]. eapply bool_eq_iff; [|apply Rltb_true].
    apply (f64_ltb_is _ _ 180 _); [apply (f64_ofZ_is 180); lia|exact Ha]. }
  assert (Hdn2 : forall a0 b0, Rel a0 b0 -> Rltb 180 b0 = true ->
            Rel (SFsub 53 1024 a0 (f64_ofZ 360)) (b0 - 360)).
  { intros a0 b0 [Ha Hab] Hlt. apply Rltb_true in Hlt.
    destruct (f64_is_format _ _ Ha) as [Hf _]. apply Rabs_le_inv in Hab. split.
    - rewrite <- (sub_exact b0) by (assumption || lra). now apply sub_step.
    - apply Rabs_le. lra. }
  specialize (H1 Hup1 Hup2).
  destruct (while_loop _ _ n x) as [a|]; destruct (while_loop _ _ n v) as [b|]; try contradiction; [|exact I].
  pose proof (while_sim Rel (fun x : f64 => SFltb (f64_ofZ 180) x) (fun x : f64 => SFsub 53 1024 x (f64_ofZ 360))
      (fun x => Rltb 180 x) (fun x => x - 360) n a b H1 Hdn1 Hdn2) as H2.
  destruct (while_loop _ _ n a) as [a'|]; destruct (while_loop _ _ n b) as [b'|]; try exact H2.
  apply H2.
Qed.

(** Above 2^62 nothing moves. *)
Lemma sub_stuck v : format v -> bpow radix2 62 < v -> rnd (v - 360) = v.
Proof.
  intros Hf Hv. pose proof (bpow_gt_0 radix2 62) as H0.
  assert (Hf62 : format (bpow radix2 62)) by (apply generic_format_bpow; cbn; lia).
  assert (Hp : bpow radix2 62 <= pred radix2 fexp64 v) by (apply pred_ge_gt; try assumption; typeclasses eauto).
  apply Rle_antisym.
  - rewrite <- (rnd_id v) at 2 by assumption. apply rnd_mono. lra.
  - apply round_N_ge_midp; [typeclasses eauto|assumption|].
    assert (Hu : 1024 <= ulp radix2 fexp64 (pred radix2 fexp64 v)).
    { replace 1024 with (ulp radix2 fexp64 (bpow radix2 62)).
      - apply ulp_le_pos; try typeclasses eauto; lra.
      - rewrite ulp_bpow. cbn. lra. }
    assert (Hv0 : 0 < v) by lra. pose proof (pred_plus_ulp radix2 fexp64 v Hv0 Hf) as E. lra.
Qed.

Theorem wrap_f64_diverges (x : f64) v n :
  f64_is x v -> bpow radix2 62 < Rabs v -> wrap_ra_diff n x = None.
Proof.
  intros Hx Hb. unfold wrap_ra_diff. cbn [ffinite F64Ops negb fltb fadd fsub fofZ].
  assert (Hfin : f64_finite x = true) by apply Hx. rewrite Hfin. cbn [negb].
  assert (H62 : 1000 <= bpow radix2 62) by (change (bpow radix2 62) with (IZR (2 ^ 62)); apply IZR_le; lia).
  assert (H180 : f64_is (f64_ofZ 180) 180) by (apply (f64_ofZ_is 180); lia).
  assert (Hm180 : f64_is (f64_ofZ (-180)) (-180)) by (apply (f64_ofZ_is (-180)); lia).
  destruct (Rle_or_lt 0 v) as [Hs|Hs].
  - rewrite Rabs_pos_eq in Hb by assumption.
    assert (E : while_loop (fun x : f64 => SFltb x (f64_ofZ (-180)))
              (fun x : f64 => SFadd 53 1024 x (f64_ofZ 360)) n x = Some x).
    { assert (SFltb x (f64_ofZ (-180)) = false).
      { apply not_true_iff_false. rewrite (f64_ltb_is _ _ _ _ Hx Hm180). lra. }
      destruct n; cbn [while_loop]; now rewrite H. }
    rewrite E. apply (while_diverges (fun a => f64_is a v)); [|assumption].
    intros a Ha. split; [apply (f64_ltb_is _ _ _ _ H180 Ha); lra|].
    rewrite <- (sub_stuck v) by (assumption || apply (f64_is_format _ _ Hx)). apply sub_step; [assumption|lra].
  - rewrite Rabs_left in Hb by assumption.
    rewrite (while_diverges (fun a => f64_is a v)); [reflexivity| |assumption].
    intros a Ha. split; [apply (f64_ltb_is _ _ _ _ Ha Hm180); lra|].
    replace v with (rnd (v + 360)) at 1; [apply add_step; [assumption|lra]|].
    rewrite add_rnd, sub_stuck; [ring| |lra]. apply generic_format_opp. apply (f64_is_format _ _ Hx).
Qed.

(** Up to 2^62 every step makes progress. *)
Lemma sub_progress v : format v -> 180 < v <= bpow radix2 62 -> rnd (v - 360) <= v - 100.
Proof.
  intros Hf [Hv Hb].
  pose proof (error_le_half_ulp radix2 fexp64 (fun t => negb (Z.even t)) (v - 360)) as He.
  assert (Hu : ulp radix2 fexp64 (v - 360) <= 512).
  { destruct (Req_dec (v - 360) 0) as [E|E].
    - rewrite E. rewrite <- (Rabs_R0). replace 512 with (ulp radix2 fexp64 (bpow radix2 61)).
      + rewrite Rabs_R0. apply ulp_le_pos; try typeclasses eauto; [lra|apply bpow_ge_0].
      + rewrite ulp_bpow. cbn. lra.
    - rewrite ulp_neq_0 by assumption. change 512 with (bpow radix2 9). apply bpow_le.
      unfold cexp, fexp64, SpecFloat.fexp, SpecFloat.emin.
      assert (mag radix2 (v - 360) <= 62)%Z.
      { apply mag_le_bpow; [assumption|]. apply Rabs_def1; lra. }
      lia. }
  change (Znearest (fun t => negb (Z.even t))) with ZnearestE in He.
  apply Rabs_le_inv in He. lra.
Qed.

Theorem wrap_f64_terminates (x : f64) v :
  f64_is x v -> Rabs v <= bpow radix2 62 -> exists n y, wrap_ra_diff n x = Some y.
Proof.
  intros Hx Hb. apply Rabs_le_inv in Hb.
  assert (H62 : 1000 <= bpow radix2 62) by (change (bpow radix2 62) with (IZR (2 ^ 62)); apply IZR_le; lia).
  assert (H180 : f64_is (f64_ofZ 180) 180) by (apply (f64_ofZ_is 180); lia).
  assert (Hm180 : f64_is (f64_ofZ (-180)) (-180)) by (apply (f64_ofZ_is (-180)); lia).
  pose (P := fun a => f64_is a (f64_val a) /\ - bpow radix2 62 <= f64_val a <= bpow radix2 62).
  assert (Hval : forall a w, f64_is a w -> f64_is a (f64_val a) /\ f64_val a = w).
  { intros a w (A & B & C). split; [repeat split; assumption|exact C]. }
  assert (HP : P x). { destruct (Hval _ _ Hx) as [A B]. split; [exact A|]. rewrite B. lra. }
  assert (Hup : forall a, P a -> SFltb a (f64_ofZ (-180)) = true ->
     P (SFadd 53 1024 a (f64_ofZ 360)) /\
     (steps (-180 - f64_val (SFadd 53 1024 a (f64_ofZ 360))) < steps (-180 - f64_val a))%nat).
  { intros a [Ha Hr] Hlt. rewrite (f64_ltb_is _ _ _ _ Ha Hm180) in Hlt.
    pose proof (add_step _ _ Ha Hlt) as Hs. destruct (f64_is_format _ _ Ha) as [Hf _].
    pose proof (add_range _ Hf Hlt). destruct (Hval _ _ Hs) as [A B].
    pose proof (sub_progress (- f64_val a) (generic_format_opp _ _ _ Hf) ltac:(lra)).
    rewrite add_rnd in B. split.
    - split; [exact A|]. rewrite B, <- add_rnd. lra.
    - rewrite B. apply steps_decrease; lra. }
  assert (Hdn : forall a, P a -> SFltb (f64_ofZ 180) a = true ->
     P (SFsub 53 1024 a (f64_ofZ 360)) /\
     (steps (f64_val (SFsub 53 1024 a (f64_ofZ 360)) - 180) < steps (f64_val a - 180))%nat).
  { intros a [Ha Hr] Hlt. rewrite (f64_ltb_is _ _ _ _ H180 Ha) in Hlt.
    pose proof (sub_step _ _ Ha Hlt) as Hs. destruct (f64_is_format _ _ Ha) as [Hf _].
    pose proof (sub_range _ Hf Hlt). destruct (Hval _ _ Hs) as [A B].
    pose proof (sub_progress (f64_val a) Hf ltac:(lra)). split.
    - split; [exact A|]. rewrite B. lra.
    - rewrite B. apply steps_decrease; lra. }
  destruct (while_stops P (fun a => steps (-180 - f64_val a)) (fun x : f64 => SFltb x (f64_ofZ (-180)))
     (fun x : f64 => SFadd 53 1024 x (f64_ofZ 360)) Hup _ x HP (Nat.le_refl _)) as [y Hy].
  assert (HPy : P y).
  { eapply (while_inv P _ _ _ _ _ Hy); [|exact HP]. intros a Ha Hc. now apply Hup. }
  destruct (while_stops P (fun a => steps (f64_val a - 180)) (fun x : f64 => SFltb (f64_ofZ 180) x)
     (fun x : f64 => SFsub 53 1024 x (f64_ofZ 360)) Hdn _ y HPy (Nat.le_refl _)) as [z Hz].
  exists (max (steps (-180 - f64_val x)) (steps (f64_val y - 180))), z.
  unfold wrap_ra_diff. cbn [ffinite F64Ops negb fltb fadd fsub fofZ].
  assert (Hfin : f64_finite x = true) by apply Hx. rewrite Hfin. cbn [negb].
  rewrite (while_mono _ _ _ _ _ y (Nat.le_max_l _ _) Hy).
  apply (while_mono _ _ _ _ _ z (Nat.le_max_r _ _) Hz).
Qed.

Theorem wrap_f64_range (x y : f64) v n :
  f64_is x v -> wrap_ra_diff n x = Some y -> exists w, f64_is y w /\ -180 <= w <= 180.
Proof.
  intros Hx. unfold wrap_ra_diff. cbn [ffinite F64Ops negb fltb fadd fsub fofZ].
  assert (Hfin : f64_finite x = true) by apply Hx. rewrite Hfin. cbn [negb].
  assert (H180 : f64_is (f64_ofZ 180) 180) by (apply (f64_ofZ_is 180); lia).
  assert (Hm180 : f64_is (f64_ofZ (-180)) (-180)) by (apply (f64_ofZ_is (-180)); lia).
  destruct (while_loop _ _ n x) as [a|] eqn:E1; [|discriminate]. intros E2.
  destruct (while_inv (fun a => exists w, f64_is a w) _ _ _ _ _ E1) as [[w Hw] Hc].
  { intros b [w Hw] Hlt. rewrite (f64_ltb_is _ _ _ _ Hw Hm180) in Hlt.
    eexists. eapply add_step; eassumption. }
  { eauto. }
  assert (Hge : -180 <= w).
  { apply not_true_iff_false in Hc. rewrite (f64_ltb_is _ _ _ _ Hw Hm180) in Hc. lra. }
  destruct (while_inv (fun a => exists w, f64_is a w /\ -180 <= w) _ _ _ _ _ E2) as [[z [Hz Hz']] Hc'].
  { intros b [u [Hu Hu']] Hlt. rewrite (f64_ltb_is _ _ _ _ H180 Hu) in Hlt.
    eexists. split; [eapply sub_step; eassumption|].
    destruct (f64_is_format _ _ Hu) as [Hf _]. apply (sub_range _ Hf Hlt). }
  { eauto. }
  exists z. split; [assumption|]. apply not_true_iff_false in Hc'.
  rewrite (f64_ltb_is _ _ _ _ H180 Hz) in Hc'. lra.
Qed.
