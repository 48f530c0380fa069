(** C92: images of single precision. *)
From Coq Require Import ZArith List Bool Lia Reals Lra SpecFloat String.
From Flocq Require Import Core BinarySingleNaN.
From Coq Require Import List.
From Verif Require Import Lib.Base Lib.Floats Lib.Float32 Model.Coadd Model.SingleSlice Model.CoaddF4
  Spec.FloatSpec Spec.CoaddSpec Spec.Float32Spec
  Proofs.BaseFacts Proofs.F64Facts Proofs.RoundSum Proofs.CoaddProofs Proofs.CoaddF64 Proofs.VarianceF64 Proofs.LanczosF64
  Proofs.Float32Facts Proofs.CoaddF32 Proofs.VarianceF32.
Import ListNotations.
Open Scope Z_scope.

#[local] Instance fexp32_valid : Valid_exp fexp32 := fexp_correct 24 128 eq_refl.

(** C92: storing a double [v] in a single precision array gives the nearest single precision
    number, exactly [v] where there is one; larger doubles never give smaller numbers. *)
Theorem C92_conversion :
  forall (x : f64) (v : R), f64_is x v ->
  ((Rabs v <= largest_single)%R -> exists w, f64_is (to_single x) w /\ single w /\
     (forall g, single g -> Rabs (w - v) <= Rabs (g - v))%R /\
     (Rabs (w - v) <= bpow radix2 (-24) * Rabs v + bpow radix2 (-150))%R) /\
  (single v -> to_single x = x) /\
  ((bpow radix2 128 <= Rabs v)%R -> exists s, to_single x = S754_infinity s /\ (s = true <-> (v < 0)%R)) /\
  (forall y w v' w', f64_is y w -> f64_is (to_single x) v' -> f64_is (to_single y) w' -> (v <= w)%R -> (v' <= w')%R).
Proof.
  intros x v Hx.
  assert (K : forall x v v', f64_is x v -> f64_is (to_single x) v' -> v' = rnd32 v).
  { clear. intros x v v' Hx Hx'. destruct (Rlt_or_le (Rabs (rnd32 v)) (bpow radix2 128)) as [L|L].
    - destruct Hx' as (_ & _ & <-). destruct (to_single_is _ _ Hx L) as (_ & _ & E). exact E.
    - destruct (to_single_overflow _ _ Hx L) as (s & E & _). rewrite E in Hx'. destruct Hx' as (_ & F & _). discriminate F. }
  split; [|split; [|split]].
  - intros B. exists (rnd32 v).
    assert (L : (Rabs (rnd32 v) < bpow radix2 128)%R) by (eapply Rle_lt_trans; [apply rnd32_range, B|apply largest_lt]).
    split; [now apply to_single_is|]. split; [now apply rnd32_single|]. split; [intros g Hg; now apply rnd32_nearest|].
    destruct (rnd32_error v) as (e & h & He & Hh & ->). replace (v * (1 + e) + h - v)%R with (v * e + h)%R by ring.
    eapply Rle_trans; [apply Rabs_triang|]. apply Rplus_le_compat; [|exact Hh].
    rewrite Rabs_mult, Rmult_comm. apply Rmult_le_compat_r; [apply Rabs_pos|exact He].
  - intros S. destruct (Req_dec v 0) as [->|N].
    + destruct (is_zero_form x Hx) as [s ->]. reflexivity.
    + apply (is_nonzero_inj _ _ v); [|exact Hx|exact N].
      rewrite <- (rnd32_id v S). apply to_single_is; [exact Hx|]. rewrite (rnd32_id v S). now apply single_format.
  - intros B. apply to_single_overflow; [exact Hx|].
    assert (G : generic_format radix2 fexp32 (bpow radix2 128)) by (apply generic_format_bpow; cbn; lia).
    apply abs_round_ge_generic; [typeclasses eauto..|exact G|exact B].
  - intros y w v' w' Hy Hx' Hy' L. rewrite (K _ _ _ Hx Hx'), (K _ _ _ Hy Hy').
    apply round_le; [typeclasses eauto..|exact L].
Qed.

(** C92: numbers that are not finite stay what they are. *)
Theorem C92_special_values :
  (forall s, to_single (S754_infinity s) = S754_infinity s) /\
  to_single S754_nan = S754_nan /\ (forall s, to_single (S754_zero s) = S754_zero s) /\
  forall x, fnan (to_single x) = fnan x.
Proof.
  repeat split. intros [s|s| |s m e]; try reflexivity. unfold to_single.
  destruct (SpecFloat.binary_round 24 128 s m e) as [s1|s1| |s1 m1 e1] eqn:E1; try reflexivity.
  - exfalso. rewrite binary_round_equiv32 in E1.
    destruct (binary_round_correct 24 128 eq_refl eq_refl mode_NE s m e) as [V C]. rewrite E1 in C.
    cbv zeta in C; destruct (Rlt_bool _ _); [destruct C as (_ & C & _); discriminate C|discriminate C].
  - rewrite binary_round_equiv. destruct (binary_round_correct 53 1024 eq_refl eq_refl mode_NE s1 m1 e1) as [V C].
    destruct (binary_round 53 1024 mode_NE s1 m1 e1) as [| | |] eqn:E; try reflexivity.
    cbv zeta in C; destruct (Rlt_bool _ _); [destruct C as (_ & C & _); discriminate C|discriminate C].
Qed.

(** C92: single precision arithmetic gives the single precision number nearest to the
    exact result. *)
Theorem C92_arithmetic :
  forall (x y : f64) (v w : R), f64_is x v -> f64_is y w -> single v -> single w ->
  let nearest z r := exists t, f64_is z t /\ single t /\ (forall g, single g -> Rabs (t - r) <= Rabs (g - r))%R in
  ((Rabs (v + w) <= bpow radix2 120)%R -> nearest (@fadd f64 F32Ops x y) (v + w)%R) /\
  ((Rabs (v - w) <= bpow radix2 120)%R -> nearest (@fsub f64 F32Ops x y) (v - w)%R) /\
  ((Rabs (v * w) <= bpow radix2 120)%R -> nearest (@fmul f64 F32Ops x y) (v * w)%R) /\
  (w <> 0%R -> (Rabs (v / w) <= bpow radix2 120)%R -> nearest (@fdiv f64 F32Ops x y) (v / w)%R).
Proof.
  intros x y v w Hx Hy Sx Sy nearest.
  assert (N : forall z r, is32 z (rnd32 r) -> nearest z r).
  { intros z r [A B]. exists (rnd32 r). split; [exact A|]. split; [exact B|]. intros g Hg. now apply rnd32_nearest. }
  split; [intros B; apply N, add32|split; [intros B; apply N, sub32|split; [intros B; apply N, mul32|intros W B; apply N, div32]]];
    try assumption; split; assumption.
Qed.

(** C92: with images of doubles it is the coadd of C39. *)
Theorem C92_double_images :
  forall (F : Type) (FO : FloatOps F) (S : Type) (resample : S -> result resampled)
         (box psf_box : Z) (slices : list S) (weights : list F) (nextra : nat),
  coadd_slice_inputs_as (fun x => x) (fun l => fdiv fone (variance l)) resample box psf_box slices weights nextra
  = coadd_slice_inputs resample box psf_box slices weights nextra.
Proof. intros. apply coadd_as_double. Qed.

(** C92: images of single precision. Every pixel is a single precision number within
    (n + 1) 2^-22 times the weighted mean of the absolute values of the weighted mean, for n
    images; the masks are unions; the weight map is one over the variance of the coadded
    noise. *)
Theorem C92_coadd_single :
  forall (S : Type) (resample : S -> result resampled) (box psf_box : Z) (slices : list S)
         (weights : list f64) (nextra : nat) (out : coadd) (weight : img f64)
         (datas : list resampled) (ws : list R),
  coadd_slice_inputs_single resample box psf_box slices weights nextra = Ok (out, weight, datas) ->
  ordinary_weights weights ws -> Z.of_nat (length ws) <= 2 ^ 20 ->
  Forall2 (fun s res => resample s = Ok res) slices datas /\
  nrows (co_image out) = box /\ ncols (co_image out) = box /\
  nrows (co_bmask out) = box /\ ncols (co_bmask out) = box /\
  nrows (co_ormask out) = box /\ ncols (co_ormask out) = box /\
  nrows (co_psf out) = psf_box /\ ncols (co_psf out) = psf_box /\
  nrows (co_mfrac out) = box /\ ncols (co_mfrac out) = box /\
  nrows weight = box /\ ncols weight = box /\
  length (co_noises out) = Datatypes.S nextra /\
  (exists n0, nth_error (co_noises out) 0 = Some n0 /\
     forall r c, inverse_spread_single (ravel n0) (px weight r c)) /\
  forall r c,
    averages_single ws (map (fun d => px (rs_image d) r c) datas) (px (co_image out) r c) /\
    averages_single ws (map (fun d => finite_part (px (rs_psf d) r c)) datas) (px (co_psf out) r c) /\
    averages_single ws (map (fun d => unit_fraction (px (rs_interp_frac d) r c)) datas) (px (co_mfrac out) r c) /\
    (forall k, Z.testbit (px (co_bmask out) r c) k = true <->
       exists d, In d datas /\ Z.testbit (px (rs_pmask d) r c) k = true) /\
    (forall k, Z.testbit (px (co_ormask out) r c) k = true <->
       exists d, In d datas /\ Z.testbit (px (rs_bmask d) r c) k = true) /\
    (forall i a, nth_error (co_noises out) i = Some a -> nrows a = box /\ ncols a = box /\ exists ds,
       Forall2 (fun d n => nth_error (rs_noises d) i = Some n) datas ds /\
       averages_single ws (map (fun n => px n r c) ds) (px a r c)).
Proof.
  intros S resample box pbox slices weights nextra out weight datas ws E (Hw & Hr & _) Hn.
  pose proof (coadd_as_spec _ _ _ _ _ _ _ _ _ _ _ E) as H. cbv zeta in H.
  destruct H as (L & Hne & HF & D1 & D2 & D3 & D4 & D5 & D6 & D7 & D8 & D9 & D10 & Ln & _ & D11 & D12 & (n0 & En & Hv) & H).
  pose proof (F2_len _ _ _ Hw) as Lw. pose proof (F2_len _ _ _ HF) as Ld.
  assert (Hws : ws <> []).
  { intros ->. destruct weights; [|discriminate]. destruct slices; [congruence|discriminate]. }
  assert (K : forall ds, List.length ds = List.length ws -> averages_single ws ds
      (stored_sum to_single (combine ds (map (fun w => fdiv w (fsum weights)) weights)))).
  { intros ds Lds xs Hxs Hb. destruct (mean_of_singles weights ws Hw Hr Hn ds xs Lds Hws Hxs Hb) as (v & V1 & V2 & V3 & _).
    exists v. auto. }
  do 13 (split; [assumption|]). split; [exact Ln|].
  split. { exists n0. split; [exact En|]. intros r c. rewrite Hv. apply inverse_spread_single_is. }
  intros r c. destruct (H r c) as (H1 & H2 & H3 & H4 & H5 & H6). clear H.
  rewrite H1, H2, H3.
  split; [apply K; rewrite map_length; lia|]. split; [apply K; rewrite map_length; lia|]. split; [apply K; rewrite map_length; lia|].
  split; [exact H4|]. split; [exact H5|].
  intros i a Ha.
  assert (Hi : (i < Datatypes.S nextra)%nat) by (rewrite <- Ln; apply nth_error_Some; congruence).
  destruct (H6 i Hi) as (a' & ds & Ha' & R1 & R2 & Hds & Hpx). rewrite Ha in Ha'. injection Ha' as <-.
  split; [exact R1|]. split; [exact R2|].
  exists ds. split; [exact Hds|]. rewrite Hpx.
  pose proof (F2_len _ _ _ Hds). apply K. rewrite map_length. lia.
Qed.

(** C92: the masked fraction is a single precision number that is not negative, so that it
    is never refused when it is written, and exceeds 1 by rounding only. *)
Theorem C92_masked_fraction :
  forall (S : Type) (resample : S -> result resampled) (box psf_box : Z) (slices : list S)
         (weights : list f64) (nextra : nat) (out : coadd) (weight : img f64)
         (datas : list resampled) (ws : list R),
  coadd_slice_inputs_single resample box psf_box slices weights nextra = Ok (out, weight, datas) ->
  ordinary_weights weights ws -> Z.of_nat (length ws) <= 2 ^ 20 ->
  forall r c,
  (forall d, In d datas -> SpecFloat.valid_binary 53 1024 (px (rs_interp_frac d) r c) = true /\
                           fnan (px (rs_interp_frac d) r c) = false) ->
  negative (store_as "mfrac_cutouts" (PF (px (co_mfrac out) r c))) = false /\
  exists v, f64_is (px (co_mfrac out) r c) v /\ single v /\
    (0 <= v <= 1 + (INR (length weights) + 2) * bpow radix2 (-22))%R.
Proof.
  intros S resample box pbox slices weights nextra out weight datas ws E (Hw & Hr & _) Hn r c Hd.
  pose proof (coadd_as_spec _ _ _ _ _ _ _ _ _ _ _ E) as H. cbv zeta in H.
  destruct H as (L & Hne & HF & _ & _ & _ & _ & _ & _ & _ & _ & _ & _ & Ln & _ & _ & _ & _ & H).
  destruct (H r c) as (_ & _ & H3 & _). clear H. rewrite H3.
  pose proof (F2_len _ _ _ Hw) as Lw. pose proof (F2_len _ _ _ HF) as Ld.
  assert (Hws : ws <> []).
  { intros ->. destruct weights; [|discriminate]. destruct slices; [congruence|discriminate]. }
  assert (X : exists xs, Forall2 f64_is (map (fun d => unit_fraction (px (rs_interp_frac d) r c)) datas) xs /\
                Forall (fun x => 0 <= x <= 1)%R xs).
  { clear - Hd. induction datas as [|d l IH]; [exists []; split; constructor|].
    destruct IH as (xs & I1 & I2); [intros d' Hd'; apply Hd; now right|].
    destruct (Hd d (or_introl eq_refl)) as [V N].
    destruct (unit_fraction_is _ V N) as (v & V1 & V2). exists (v :: xs). split; constructor; assumption. }
  destruct X as (xs & X1 & X2).
  assert (Lx : List.length xs = List.length ws) by (rewrite <- (F2_len _ _ _ X1), map_length; lia).
  assert (B1 : (1 <= bpow radix2 100)%R) by (change 1%R with (bpow radix2 0); apply bpow_le; lia).
  assert (Lu : List.length (map (fun d => unit_fraction (px (rs_interp_frac d) r c)) datas) = List.length ws) by (rewrite map_length; lia).
  destruct (mean_of_singles weights ws Hw Hr Hn _ xs Lu Hws X1) as (v & V1 & V2 & V3 & V4).
  { eapply Forall_impl; [|exact X2]. cbn beta. intros x Hx. rewrite Rabs_pos_eq; lra. }
  assert (V0 : (0 <= v)%R) by (apply V4; eapply Forall_impl; [|exact X2]; cbn beta; intros; lra).
  split.
  - match goal with |- context [PF ?t] => set (z := t) in * end. clearbody z.
    change (fltb (to_single z) fzero = false). rewrite (proj1 (proj2 (C92_conversion _ _ V1)) V2).
    apply not_true_iff_false. intros Hl.
    assert (Z0 : f64_is (fzero : f64) 0) by (apply (f64_ofZ_is 0); cbn; lia).
    pose proof (proj1 (f64_ltb_is _ _ _ _ V1 Z0) Hl). lra.
  - exists v. split; [exact V1|]. split; [exact V2|]. split; [exact V0|].
    assert (Xa : map Rabs xs = xs).
    { clear - X2. induction X2 as [|x l Hx _ IH]; [reflexivity|]. cbn. rewrite IH, Rabs_pos_eq by lra. reflexivity. }
    rewrite Xa in V3.
    assert (P : Forall (fun w => 0 < w)%R ws) by exact (ws_pos ws Hr).
    assert (M : (0 <= weighted_mean xs ws <= 1)%R).
    { unfold weighted_mean.
      assert (T : (0 < total ws)%R).
      { destruct ws as [|w0 wl]; [congruence|]. pose proof (total_pos_member _ w0 P ltac:(now left)) as T0.
        inversion P; subst. lra. }
      assert (Q : (0 <= weighted_sum (combine xs ws) <= total ws)%R).
      { clear - P X2 Lx. revert xs X2 Lx. induction P as [|w l Hw _ IH]; intros [|x xs] X Lx; try discriminate Lx.
        - cbn. lra.
        - inversion X as [|? ? X1 X2]; subst. injection Lx as Lx. specialize (IH xs X2 Lx).
          cbn [combine]. change (weighted_sum ((x, w) :: combine xs l)) with (x * w + weighted_sum (combine xs l))%R.
          change (total (w :: l)) with (w + total l)%R. nra. }
      split; [apply Rmult_le_pos; [lra|left; now apply Rinv_0_lt_compat]|].
      apply Rmult_le_reg_r with (total ws); [exact T|]. unfold Rdiv. rewrite Rmult_assoc, Rinv_l by lra. lra. }
    apply Rabs_le_inv in V3. rewrite Lw.
    assert (N0 : (0 <= INR (List.length ws))%R) by apply pos_INR.
    assert (S1 : (bpow radix2 (-120) <= bpow radix2 (-22))%R) by (apply bpow_le; lia).
    assert (S2 : (0 < bpow radix2 (-22))%R) by apply bpow_gt_0.
    assert (K : ((INR (List.length ws) + 1) * bpow radix2 (-22) * weighted_mean xs ws
                 <= (INR (List.length ws) + 1) * bpow radix2 (-22) * 1)%R).
    { apply Rmult_le_compat_l; [|lra]. apply Rmult_le_pos; lra. }
    lra.
Qed.

(** C92: what is written. Single precision numbers, infinities and NaN are written as they
    are in an extension of floats, doubles rounded once; masks of 32 bits are written as they
    are. *)
Theorem C92_written :
  forall ext, In ext ["image_cutouts"; "weight_cutouts"; "noise_cutouts"; "psf"; "mfrac_cutouts"]%string ->
  (forall x, store_as ext (PF x) = PF (to_single x)) /\
  (forall x v, f64_is x v -> single v -> store_as ext (PF x) = PF x) /\
  (forall x, to_single (to_single x) = to_single x).
Proof.
  intros ext Hext.
  assert (A : forall x, store_as ext (PF x) = PF (to_single x)).
  { intros x. cbn in Hext. repeat destruct Hext as [<-|Hext]; try reflexivity. destruct Hext. }
  split; [exact A|]. split.
  - intros x v Hx S. rewrite A. now rewrite (proj1 (proj2 (C92_conversion _ _ Hx)) S).
  - intros [s|s| |s m e]; try reflexivity.
    destruct (to_single (S754_finite s m e)) as [s1|s1| |s1 m1 e1] eqn:E; try reflexivity.
    unfold to_single in E.
    destruct (SpecFloat.binary_round 24 128 s m e) as [| | |s2 m2 e2] eqn:E2; try discriminate E.
    assert (V2 : f64_is (S754_finite s1 m1 e1) (SF2R radix2 (S754_finite s2 m2 e2)) /\ single (SF2R radix2 (S754_finite s2 m2 e2))).
    { rewrite binary_round_equiv32 in E2.
      destruct (binary_round_correct 24 128 eq_refl eq_refl mode_NE s m e) as [V C]. rewrite E2 in V, C.
      cbv zeta in C.
      destruct (Rlt_bool_spec (Rabs (round radix2 fexp32 (round_mode mode_NE) (F2R (Float radix2 (cond_Zopp s (Z.pos m)) e))))
        (bpow radix2 128)) as [L|L]; [|discriminate C]. destruct C as (C1 & _ & _).
      assert (Sg : single (SF2R radix2 (S754_finite s2 m2 e2))).
      { rewrite C1. apply rnd32_single. exact L. }
      split; [|exact Sg].
      destruct (single_format _ Sg) as [G L2].
      rewrite binary_round_equiv in E. destruct (binary_round_correct 53 1024 eq_refl eq_refl mode_NE s2 m2 e2) as [V' C']. rewrite E in V', C'. cbv zeta in C'.
      assert (Eq : round radix2 (SpecFloat.fexp 53 1024) (round_mode mode_NE) (F2R (Float radix2 (cond_Zopp s2 (Z.pos m2)) e2))
                   = SF2R radix2 (S754_finite s2 m2 e2)).
      { apply round_generic; [typeclasses eauto|]. apply format_incl, G. }
      rewrite Eq in C'. rewrite Rlt_bool_true in C' by (eapply Rlt_trans; [exact L2|apply bpow_lt; lia]).
      destruct C' as (C1' & C2' & _). split; [exact V'|]. split; [reflexivity|exact C1']. }
    destruct V2 as [V2 S2]. exact (proj1 (proj2 (C92_conversion _ _ V2)) S2).
Qed.

Theorem C92_masks_written :
  forall ext, In ext ["seg_cutouts"; "bmask_cutouts"; "ormask_cutouts"]%string ->
  forall z, - 2 ^ 31 <= z < 2 ^ 31 -> store_as ext (PI z) = PI z.
Proof.
  intros ext Hext z Hz.
  assert (A : store_as ext (PI z) = PI (to_i4 z)).
  { cbn in Hext. repeat destruct Hext as [<-|Hext]; try reflexivity. destruct Hext. }
  rewrite A. unfold to_i4. rewrite Z.mod_small; [f_equal; lia|]. change (2 ^ 32) with (2 * 2 ^ 31). lia.
Qed.

(** C92: the masks of a coadd fit in 32 bits if those of the images do. *)
Theorem C92_masks_fit :
  forall (S : Type) (resample : S -> result resampled) (box psf_box : Z) (slices : list S)
         (weights : list f64) (nextra : nat) (out : coadd) (weight : img f64) (datas : list resampled),
  coadd_slice_inputs_single resample box psf_box slices weights nextra = Ok (out, weight, datas) ->
  forall r c,
  (forall d, In d datas -> - 2 ^ 31 <= px (rs_pmask d) r c < 2 ^ 31 /\ - 2 ^ 31 <= px (rs_bmask d) r c < 2 ^ 31) ->
  - 2 ^ 31 <= px (co_bmask out) r c < 2 ^ 31 /\ - 2 ^ 31 <= px (co_ormask out) r c < 2 ^ 31.
Proof.
  intros S resample box pbox slices weights nextra out weight datas E r c Hd.
  pose proof (coadd_as_spec _ _ _ _ _ _ _ _ _ _ _ E) as H. cbv zeta in H.
  destruct H as (_ & _ & _ & _ & _ & _ & _ & _ & _ & _ & _ & _ & _ & _ & _ & _ & _ & _ & H).
  destruct (H r c) as (_ & _ & _ & H4 & H5 & _). clear H.
  assert (R : forall z, - 2 ^ 31 <= z < 2 ^ 31 <-> (forall k, 31 <= k -> Z.testbit z k = Z.testbit z 31)).
  { clear. intros z. split.
    - intros Hz k Hk.
      assert (Sh : forall j, 31 <= j -> Z.testbit z j = Z.testbit (Z.shiftr z 31) (j - 31)).
      { intros j Hj. rewrite Z.shiftr_spec by lia. f_equal. lia. }
      rewrite !Sh by lia. rewrite Z.shiftr_div_pow2 by lia.
      destruct (Z_lt_le_dec z 0) as [N|N].
      + assert (z / 2 ^ 31 = -1) as ->.
        { symmetry. apply (Z.div_unique_pos z (2 ^ 31) (-1) (z + 2 ^ 31)); lia. }
        rewrite !Z.bits_m1 by lia. reflexivity.
      + rewrite Z.div_small by lia. now rewrite !Z.bits_0.
    - intros Hz. assert (E : Z.shiftr z 31 = 0 \/ Z.shiftr z 31 = -1).
      { destruct (Z.testbit z 31) eqn:B.
        - right. apply Z.bits_inj'. intros k Hk. rewrite Z.shiftr_spec, Z.bits_m1 by lia. apply Hz. lia.
        - left. apply Z.bits_inj'. intros k Hk. rewrite Z.shiftr_spec, Z.bits_0 by lia. apply Hz. lia. }
      rewrite Z.shiftr_div_pow2 in E by lia. pose proof (Z.div_mod z (2 ^ 31) ltac:(lia)) as D.
      pose proof (Z.mod_pos_bound z (2 ^ 31) ltac:(lia)) as M. destruct E as [E|E]; rewrite E in D; lia. }
  assert (K : forall z (f : @resampled f64 -> Z), (forall d, In d datas -> - 2 ^ 31 <= f d < 2 ^ 31) ->
    (forall k, Z.testbit z k = true <-> exists d, In d datas /\ Z.testbit (f d) k = true) -> - 2 ^ 31 <= z < 2 ^ 31).
  { intros z f Hf Hz. apply R. intros k Hk. apply eq_true_iff_eq. rewrite !Hz.
    split; intros (d & Hin & B); exists d; (split; [exact Hin|]); [rewrite <- B; symmetry|rewrite <- B];
      apply (proj1 (R (f d)) (Hf d Hin)); exact Hk. }
  split; [apply (K _ (fun d => px (rs_pmask d) r c)); [intros d Hin; apply Hd, Hin|exact H4]
         |apply (K _ (fun d => px (rs_bmask d) r c)); [intros d Hin; apply Hd, Hin|exact H5]].
Qed.

(** One tenth and three tenths with weights 1 and 3, in 1 by 1 images: the hypotheses hold
    and the pixel is the single precision number one quarter. *)
Definition ex_single (v n : f64) : resampled :=
  mkres (full 1 1 v) [full 1 1 n] (full 1 1 v) (full 1 1 v) (full 1 1 4) (full 1 1 2).

Definition tenth (k : Z) : f64 := SFdiv 53 1024 (f64_ofZ k) (f64_ofZ 10).

Example C92_example_coadd :
  ordinary_weights [f64_ofZ 1; f64_ofZ 3] [1; 3]%R /\
  exists out weight datas,
    coadd_slice_inputs_single (fun r => Ok r) 1 1 [ex_single (tenth 1) (tenth 2); ex_single (tenth 3) (tenth 7)]
      [f64_ofZ 1; f64_ofZ 3] 0 = Ok (out, weight, datas) /\
    px (co_image out) 0 0 = SFdiv 53 1024 (f64_ofZ 1) (f64_ofZ 4) /\
    px (co_bmask out) 0 0 = 2 /\ px (co_ormask out) 0 0 = 4.
Proof.
  split.
  - split; [|split].
    + repeat constructor; apply f64_ofZ_is; cbn; lia.
    + assert (B : (bpow radix2 (-450) <= 1)%R) by (change 1%R with (bpow radix2 0); apply bpow_le; lia).
      assert (B' : (4 <= bpow radix2 450)%R) by (change 4%R with (bpow radix2 2); apply bpow_le; lia).
      repeat (apply Forall_cons; [lra|]). apply Forall_nil.
    + cbn. lia.
  - do 3 eexists. split; [reflexivity|]. vm_compute. repeat split.
Qed.

(** One tenth is not a single precision number; the nearest one is 13421773 / 2^27. Noise
    values 1, 3, 5, 7: the weight is the single precision number nearest to 1/5. *)
Example C92_example_conversion :
  to_single (tenth 1) = SFdiv 53 1024 (f64_ofZ 13421773) (f64_ofZ (2 ^ 27)) /\ to_single (tenth 1) <> tenth 1 /\
  (forall k, Z.abs k < 2 ^ 24 -> single (IZR k)) /\
  to_single (f64_ofZ (2 ^ 24 + 1)) = f64_ofZ (2 ^ 24) /\
  to_single (f64_ofZ (2 ^ 130)) = S754_infinity false /\
  to_single (inverse_variance_single [f64_ofZ 1; f64_ofZ 3; f64_ofZ 5; f64_ofZ 7])
  = to_single (SFdiv 53 1024 (f64_ofZ 1) (f64_ofZ 5)) /\
  store_as "image_cutouts" (PF (tenth 1)) = PF (to_single (tenth 1)) /\
  store_as "bmask_cutouts" (PI (-5)) = PI (-5) /\ store_as "bmask_cutouts" (PI (2 ^ 31)) = PI (- 2 ^ 31).
Proof.
  split; [vm_compute; reflexivity|]. split; [vm_compute; discriminate|].
  split. { intros k Hk. exists k, 0. split; [cbn; ring|]. split; [exact Hk|lia]. }
  repeat split; vm_compute; reflexivity.
Qed.

Print Assumptions C92_conversion.
Print Assumptions C92_special_values.
Print Assumptions C92_arithmetic.
Print Assumptions C92_double_images.
Print Assumptions C92_coadd_single.
Print Assumptions C92_masked_fraction.
Print Assumptions C92_written.
Print Assumptions C92_masks_written.
Print Assumptions C92_masks_fit.
