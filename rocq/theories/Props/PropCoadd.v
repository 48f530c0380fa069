(** C39, C59: the coadd of one slice and its epoch counts. *)
From Coq Require Import ZArith List Bool Lia Reals Lra Permutation.
From Flocq Require Import Core.Raux Core.Zaux.
From Verif Require Import Lib.Base Lib.Floats Model.Coadd Spec.FloatSpec Spec.CoaddSpec Proofs.BaseFacts
  Proofs.CoaddProofs Proofs.F64Facts Proofs.CoaddF64 Proofs.VarianceF64.
Import ListNotations.
Open Scope Z_scope.

(** C39, any arithmetic: what each output holds, sums taken in input order. *)
Theorem C39_coadd_exact :
  forall (F : Type) (FO : FloatOps F) (S : Type) (resample : S -> result resampled)
         (box psf_box : Z) (slices : list S) (weights : list F) (nextra : nat)
         (out : coadd) (weight : img F) (datas : list resampled),
  coadd_slice_inputs resample box psf_box slices weights nextra = Ok (out, weight, datas) ->
  let ws := map (fun w => fdiv w (fsum weights)) weights in
  length slices = length weights /\ slices <> [] /\
  Forall2 (fun s res => resample s = Ok res) slices datas /\
  nrows (co_image out) = box /\ ncols (co_image out) = box /\
  nrows (co_bmask out) = box /\ ncols (co_bmask out) = box /\
  nrows (co_ormask out) = box /\ ncols (co_ormask out) = box /\
  nrows (co_psf out) = psf_box /\ ncols (co_psf out) = psf_box /\
  nrows (co_mfrac out) = box /\ ncols (co_mfrac out) = box /\
  length (co_noises out) = Datatypes.S nextra /\
  Forall (fun res => (Datatypes.S nextra <= length (rs_noises res))%nat) datas /\
  nrows weight = box /\ ncols weight = box /\
  (exists n0, nth_error (co_noises out) 0 = Some n0 /\
     forall r c, px weight r c = fdiv fone (squared_deviation (ravel n0))) /\
  forall r c,
    px (co_image out) r c = running_sum (combine (map (fun d => px (rs_image d) r c) datas) ws) /\
    px (co_psf out) r c =
      running_sum (combine (map (fun d => finite_part (px (rs_psf d) r c)) datas) ws) /\
    px (co_mfrac out) r c =
      running_sum (combine (map (fun d => unit_fraction (px (rs_interp_frac d) r c)) datas) ws) /\
    (forall k, Z.testbit (px (co_bmask out) r c) k = true <->
       exists d, In d datas /\ Z.testbit (px (rs_pmask d) r c) k = true) /\
    (forall k, Z.testbit (px (co_ormask out) r c) k = true <->
       exists d, In d datas /\ Z.testbit (px (rs_bmask d) r c) k = true) /\
    (forall i, (i < Datatypes.S nextra)%nat ->
       exists a ds, nth_error (co_noises out) i = Some a /\
         nrows a = box /\ ncols a = box /\
         Forall2 (fun d n => nth_error (rs_noises d) i = Some n) datas ds /\
         px a r c = running_sum (combine (map (fun n => px n r c) ds) ws)).
Proof.
  intros F FO S resample box psf_box slices weights nextra out weight datas H ws.
  pose proof (coadd_spec _ _ _ _ _ _ _ _ _ H) as HS. fold ws in HS.
  repeat (destruct HS as (H0 & HS); split; [exact H0|]; clear H0).
  destruct HS as ((n0 & En & Hv) & Hpx). split.
  - exists n0. split; [exact En|]. intros r c. rewrite Hv, variance_deviation. reflexivity.
  - intros r c. destruct (Hpx r c) as (P1 & P2 & P3 & Prest). split; [exact P1|].
    split; [rewrite P2; do 2 f_equal; apply map_ext; intros; apply finite_or_zero_part|].
    split; [exact P3|exact Prest].
Qed.

(** C39: it succeeds whenever there is at least one image, as many weights and
    every image can be resampled with enough noise fields; different numbers of
    images and weights are refused. *)
Theorem C39_coadd_succeeds :
  forall (F : Type) (FO : FloatOps F) (S : Type) (resample : S -> result resampled)
         (box psf_box : Z) (slices : list S) (weights : list F) (nextra : nat),
  (length slices = length weights -> slices <> [] ->
   (forall s, In s slices -> exists res, resample s = Ok res /\
      (Datatypes.S nextra <= length (rs_noises res))%nat) ->
   exists out, coadd_slice_inputs resample box psf_box slices weights nextra = Ok out) /\
  (length slices <> length weights ->
   coadd_slice_inputs resample box psf_box slices weights nextra = Raise AssertionError).
Proof. intros. split; [apply coadd_ok|apply coadd_mismatch]. Qed.

(** C39, exact arithmetic: weighted means. *)
Theorem C39_coadd_is_weighted_mean :
  forall (S : Type) (resample : S -> result resampled) (box psf_box : Z) (slices : list S)
         (weights : list R) (nextra : nat) (out : coadd) (weight : img R)
         (datas : list resampled),
  coadd_slice_inputs resample box psf_box slices weights nextra = Ok (out, weight, datas) ->
  let mean_of xs := (weighted_sum (combine xs weights) / total weights)%R in
  (forall r c,
     px (co_image out) r c = mean_of (map (fun d => px (rs_image d) r c) datas) /\
     px (co_psf out) r c = mean_of (map (fun d => px (rs_psf d) r c) datas) /\
     px (co_mfrac out) r c =
       mean_of (map (fun d => Rmin (Rabs (px (rs_interp_frac d) r c)) 1) datas) /\
     (forall i a, nth_error (co_noises out) i = Some a -> exists ds,
        Forall2 (fun d n => nth_error (rs_noises d) i = Some n) datas ds /\
        px a r c = mean_of (map (fun n => px n r c) ds))) /\
  (exists n0, nth_error (co_noises out) 0 = Some n0 /\
     forall r c, px weight r c = (1 / spread (ravel n0))%R).
Proof.
  intros S resample box pbox slices weights nextra out weight datas E mean_of.
  destruct (coadd_spec _ _ _ _ _ _ _ _ _ E) as (L & Hne & D & _ & _ & _ & _ & _ & _ & _ & _ & _ & _ & A11 & _ & _ & _ & (n0 & An0 & Aw) & Apx).
  assert (Hm : forall xs : list R, running_sum (combine xs (map (fun w => fdiv w (fsum weights)) weights)) = mean_of xs).
  { intros xs. rewrite running_weighted, R_fsum_total. cbn [fdiv ROps].
    unfold mean_of. apply weighted_normalised. }
  split.
  - intros r c. destruct (Apx r c) as (P1 & P2 & P3 & _ & _ & P6). rewrite Hm in P1, P2, P3.
    split; [exact P1|]. split; [exact P2|].
    split; [rewrite P3; f_equal; apply map_ext; intros; apply clip01_value|].
    intros i a Ha. destruct (P6 i) as (a0 & ds & Ea & _ & _ & Hds & Hp).
    + rewrite <- A11. apply nth_error_Some. congruence.
    + assert (a0 = a) as -> by congruence. exists ds. split; [exact Hds|]. now rewrite Hp, Hm.
  - exists n0. split; [exact An0|]. intros r c. rewrite Aw, variance_spread. reflexivity.
Qed.

(** C39: where all inputs agree the coadd agrees with them, and in general it
    lies between the smallest and the largest input. *)
Theorem C39_coadd_between_inputs :
  forall (S : Type) (resample : S -> result resampled) (box psf_box : Z) (slices : list S)
         (weights : list R) (nextra : nat) (out : coadd) (weight : img R)
         (datas : list resampled),
  coadd_slice_inputs resample box psf_box slices weights nextra = Ok (out, weight, datas) ->
  (forall r c v, total weights <> 0%R -> (forall d, In d datas -> px (rs_image d) r c = v) ->
     px (co_image out) r c = v) /\
  (forall r c lo hi, (forall w, In w weights -> 0 < w)%R ->
     (forall d, In d datas -> lo <= px (rs_image d) r c <= hi)%R ->
     (lo <= px (co_image out) r c <= hi)%R).
Proof.
  intros S resample box pbox slices weights nextra out weight datas E.
  destruct (coadd_spec _ _ _ _ _ _ _ _ _ E) as (L & Hne & D & _).
  destruct (C39_coadd_is_weighted_mean _ _ _ _ _ _ _ _ _ _ E) as [Hpx _].
  assert (Ld : length datas = length weights).
  { rewrite <- L. clear - D. induction D; cbn; congruence. }
  split.
  - intros r c v Ht Hv. destruct (Hpx r c) as (-> & _).
    rewrite (weighted_const _ _ v); [field; exact Ht|rewrite map_length; exact Ld|].
    intros x Hx. apply in_map_iff in Hx as (d & <- & Hd). now apply Hv.
  - intros r c lo hi Hw Hb. destruct (Hpx r c) as (-> & _).
    assert (Hp : (0 < total weights)%R).
    { destruct weights as [|w ws]; [destruct slices; [congruence|discriminate]|].
      pose proof (Hw w (or_introl eq_refl)).
      assert (0 <= total ws)%R by (apply total_nonneg; intros x Hx; specialize (Hw x (or_intror Hx)); lra).
      unfold total in *. cbn. lra. }
    destruct (weighted_bounds (map (fun d => px (rs_image d) r c) datas) weights lo hi) as [B1 B2].
    + rewrite map_length. exact Ld.
    + intros x Hx. apply in_map_iff in Hx as (d & <- & Hd). now apply Hb.
    + intros w Hin. specialize (Hw w Hin). lra.
    + split; [apply (Rmult_le_reg_r (total weights))|apply (Rmult_le_reg_r (total weights))];
        try assumption; unfold Rdiv; rewrite Rmult_assoc, Rinv_l by lra; lra.
Qed.

(** C39: the masked fraction is a fraction. *)
Theorem C39_masked_fraction_in_unit_interval :
  forall (S : Type) (resample : S -> result resampled) (box psf_box : Z) (slices : list S)
         (weights : list R) (nextra : nat) (out : coadd) (weight : img R)
         (datas : list resampled),
  coadd_slice_inputs resample box psf_box slices weights nextra = Ok (out, weight, datas) ->
  (forall w, In w weights -> 0 < w)%R ->
  forall r c, (0 <= px (co_mfrac out) r c <= 1)%R.
Proof.
  intros S resample box pbox slices weights nextra out weight datas E Hw r c.
  destruct (coadd_spec _ _ _ _ _ _ _ _ _ E) as (L & Hne & D & _).
  destruct (C39_coadd_is_weighted_mean _ _ _ _ _ _ _ _ _ _ E) as [Hpx _].
  destruct (Hpx r c) as (_ & _ & -> & _).
  assert (Ld : length datas = length weights).
  { rewrite <- L. clear - D. induction D; cbn; congruence. }
  assert (Hp : (0 < total weights)%R).
  { destruct weights as [|w ws]; [destruct slices; [congruence|discriminate]|].
    pose proof (Hw w (or_introl eq_refl)).
    assert (0 <= total ws)%R by (apply total_nonneg; intros x Hx; specialize (Hw x (or_intror Hx)); lra).
    unfold total in *. cbn. lra. }
  destruct (weighted_bounds (map (fun d => Rmin (Rabs (px (rs_interp_frac d) r c)) 1) datas) weights 0 1) as [B1 B2].
  + rewrite map_length. exact Ld.
  + intros x Hx. apply in_map_iff in Hx as (d & <- & Hd).
    pose proof (Rabs_pos (px (rs_interp_frac d) r c)). unfold Rmin. destruct (Rle_dec _ _); lra.
  + intros w Hin. specialize (Hw w Hin). lra.
  + split; [apply (Rmult_le_reg_r (total weights))|apply (Rmult_le_reg_r (total weights))];
        try assumption; unfold Rdiv; rewrite Rmult_assoc, Rinv_l by lra; lra.
Qed.

(** C39: the order of the inputs does not matter. *)
Theorem C39_coadd_order_independent :
  forall (S : Type) (resample : S -> result resampled) (box psf_box : Z)
         (slices slices' : list S) (weights weights' : list R) (nextra : nat) (out : coadd)
         (weight : img R) (datas : list resampled),
  length slices' = length weights' ->
  Permutation (combine slices weights) (combine slices' weights') ->
  coadd_slice_inputs resample box psf_box slices weights nextra = Ok (out, weight, datas) ->
  exists out' weight' datas',
    coadd_slice_inputs resample box psf_box slices' weights' nextra
      = Ok (out', weight', datas') /\
    img_eq (co_image out') (co_image out) /\ img_eq (co_bmask out') (co_bmask out) /\
    img_eq (co_ormask out') (co_ormask out) /\ img_eq (co_psf out') (co_psf out) /\
    img_eq (co_mfrac out') (co_mfrac out) /\
    Forall2 img_eq (co_noises out') (co_noises out) /\ img_eq weight' weight.
Proof.
  intros S resample box pbox slices slices' weights weights' nextra out weight datas L P E.
  exact (coadd_permutation resample box pbox slices weights slices' weights' nextra out weight
           datas L P E).
Qed.

(** A coadd of two images of one pixel, weights 1 and 3. *)
Definition one (v : R) : img R := full 1 1 v.
Definition ex_res (v f : R) (b p : Z) : resampled (F := R) :=
  mkres (one v) [one v] (one f) (one 2%R) (full 1 1 b) (full 1 1 p).
Definition ex_resample (b : bool) : result (resampled (F := R)) :=
  if b then Ok (ex_res 4 (-2) 1 8) else Ok (ex_res 8 0 2 0).

Example C39_example :
  exists out weight datas,
    coadd_slice_inputs ex_resample 1 1 [true; false] [1; 3]%R 0 = Ok (out, weight, datas) /\
    px (co_image out) 0 0 = 7%R /\ px (co_mfrac out) 0 0 = (1 / 4)%R /\
    px (co_psf out) 0 0 = 2%R /\ px (co_ormask out) 0 0 = 3 /\ px (co_bmask out) 0 0 = 8.
Proof.
  destruct (coadd_ok ex_resample 1 1 [true; false] [1; 3]%R 0) as ([[out weight] datas] & E).
  - reflexivity.
  - discriminate.
  - intros [|] _; eexists; (split; [reflexivity|cbn; lia]).
  - exists out, weight, datas. split; [exact E|].
    destruct (coadd_spec _ _ _ _ _ _ _ _ _ E) as (_ & _ & D & _).
    assert (datas = [ex_res 4 (-2) 1 8; ex_res 8 0 2 0]) as ->.
    { inversion D as [|? ? ? ? H1 D2]; subst. inversion D2 as [|? ? ? ? H2 D3]; subst.
      inversion D3; subst. cbn in H1, H2. congruence. }
    destruct (C39_coadd_is_weighted_mean _ _ _ _ _ _ _ _ _ _ E) as [Hpx _].
    destruct (Hpx 0 0) as (-> & -> & -> & _).
    unfold weighted_sum, total. cbn.
    replace (Rabs (-2)) with 2%R by (rewrite Rabs_left; lra). rewrite Rabs_R0.
    replace (Rmin 2 1) with 1%R by (unfold Rmin; destruct (Rle_dec 2 1); lra).
    replace (Rmin 0 1) with 0%R by (unfold Rmin; destruct (Rle_dec 0 1); lra).
    split; [lra|]. split; [lra|]. split; [lra|].
    destruct (coadd_spec _ _ _ _ _ _ _ _ _ E) as (_ & _ & _ & _ & _ & _ & _ & _ & _ & _ & _ & _ & _ & _ & _ & _ & _ & _ & Hb).
    destruct (Hb 0 0) as (_ & _ & _ & Q1 & Q2 & _).
    split; apply Z.bits_inj; intros k; apply Bool.eq_iff_eq_true; [rewrite Q2|rewrite Q1].
    + split.
      * intros (d & [<-|[<-|[]]] & Ht); cbn in Ht.
        -- change 3 with (Z.lor 1 2). rewrite Z.lor_spec, Ht. reflexivity.
        -- change 3 with (Z.lor 1 2). rewrite Z.lor_spec, Ht. apply orb_true_r.
      * change 3 with (Z.lor 1 2). rewrite Z.lor_spec, orb_true_iff. intros [Ht|Ht].
        -- exists (ex_res 4 (-2) 1 8). split; [now left|exact Ht].
        -- exists (ex_res 8 0 2 0). split; [right; now left|exact Ht].
    + split.
      * intros (d & [<-|[<-|[]]] & Ht); cbn [rs_pmask ex_res full px] in Ht; [exact Ht|].
        rewrite Z.bits_0 in Ht. discriminate.
      * intros Ht. exists (ex_res 4 (-2) 1 8). split; [now left|exact Ht].
Qed.

(** C39, double arithmetic: the same up to (3 n + 2) 2^-52 times the weighted mean of
    the absolute values, for n images. *)
Theorem C39_coadd_is_weighted_mean_double :
  forall (S : Type) (resample : S -> result resampled) (box psf_box : Z) (slices : list S)
         (weights : list f64) (nextra : nat) (out : coadd) (weight : img f64)
         (datas : list resampled) (ws : list R),
  coadd_slice_inputs resample box psf_box slices weights nextra = Ok (out, weight, datas) ->
  ordinary_weights weights ws ->
  (exists n0, nth_error (co_noises out) 0 = Some n0 /\
     forall r c, inverse_spread (ravel n0) (px weight r c)) /\
  forall r c,
    averages ws (map (fun d => px (rs_image d) r c) datas) (px (co_image out) r c) /\
    averages ws (map (fun d => finite_part (px (rs_psf d) r c)) datas) (px (co_psf out) r c) /\
    averages ws (map (fun d => unit_fraction (px (rs_interp_frac d) r c)) datas) (px (co_mfrac out) r c) /\
    (forall i a, nth_error (co_noises out) i = Some a -> exists ds,
       Forall2 (fun d n => nth_error (rs_noises d) i = Some n) datas ds /\
       averages ws (map (fun n => px n r c) ds) (px a r c)).
Proof.
  intros S resample box pbox slices weights nextra out weight datas ws E (Hw & Hr & Hn).
  pose proof (C39_coadd_exact _ _ _ _ _ _ _ _ _ _ _ _ E) as H. cbv zeta in H.
  destruct H as (L & Hne & HF & _ & _ & _ & _ & _ & _ & _ & _ & _ & _ & Ln & _ & _ & _ & (n0 & En & Hv) & H).
  split. { exists n0. split; [exact En|]. intros r c. rewrite Hv. apply inverse_spread_is. }
  intros r c.
  destruct (H r c) as (H1 & H2 & H3 & _ & _ & H6). clear H.
  pose proof (F2_len _ _ _ Hw) as Lw. pose proof (F2_len _ _ _ HF) as Ld.
  assert (Hws : ws <> []).
  { intros ->. destruct weights; [|discriminate]. destruct slices; [congruence|discriminate]. }
  rewrite H1, H2, H3.
  split; [|split; [|split]];
    try (apply mean_of_doubles; try assumption; rewrite map_length; lia).
  intros i a Ha.
  assert (Hi : (i < Datatypes.S nextra)%nat) by (rewrite <- Ln; apply nth_error_Some; congruence).
  destruct (H6 i Hi) as (a' & ds & Ha' & _ & _ & Hds & Hpx). rewrite Ha in Ha'. injection Ha' as <-.
  exists ds. split; [exact Hds|]. rewrite Hpx.
  pose proof (F2_len _ _ _ Hds). apply mean_of_doubles; try assumption. rewrite map_length. lia.
Qed.

(** C39, double arithmetic: the masked fraction is never negative, and exceeds 1 by
    rounding only. *)
Theorem C39_masked_fraction_double :
  forall (S : Type) (resample : S -> result resampled) (box psf_box : Z) (slices : list S)
         (weights : list f64) (nextra : nat) (out : coadd) (weight : img f64)
         (datas : list resampled) (ws : list R),
  coadd_slice_inputs resample box psf_box slices weights nextra = Ok (out, weight, datas) ->
  ordinary_weights weights ws ->
  forall r c,
  (forall d, In d datas -> SpecFloat.valid_binary 53 1024 (px (rs_interp_frac d) r c) = true /\
                           fnan (px (rs_interp_frac d) r c) = false) ->
  exists v, f64_is (px (co_mfrac out) r c) v /\
    (0 <= v <= 1 + (3 * INR (length weights) + 3) * bpow radix2 (-52))%R.
Proof.
  intros S resample box pbox slices weights nextra out weight datas ws E (Hw & Hr & Hn) r c Hd.
  pose proof (C39_coadd_exact _ _ _ _ _ _ _ _ _ _ _ _ E) as H. cbv zeta in H.
  destruct H as (L & Hne & HF & _ & _ & _ & _ & _ & _ & _ & _ & _ & _ & Ln & _ & _ & _ & _ & H).
  destruct (H r c) as (_ & _ & H3 & _). clear H. rewrite H3.
  pose proof (F2_len _ _ _ Hw) as Lw. pose proof (F2_len _ _ _ HF) as Ld.
  assert (Hws : ws <> []).
  { intros ->. destruct weights; [|discriminate]. destruct slices; [congruence|discriminate]. }
  assert (X : exists xs, Forall2 f64_is (map (fun d => unit_fraction (px (rs_interp_frac d) r c)) datas) xs /\
                Forall (fun x => 0 <= x <= 1)%R xs).
  { clear - Hd. induction datas as [|d l IH]; [exists []; split; constructor|].
    destruct IH as (xs & I1 & I2); [intros d' Hd'; apply Hd; now right|].
    destruct (Hd d (or_introl eq_refl)) as [V N].
    destruct (unit_fraction_is _ V N) as (v & V1 & V2). exists (v :: xs). split; constructor; assumption. }
  destruct X as (xs & X1 & X2). rewrite Lw.
  apply (mean_of_nonneg weights ws Hw Hr Hn _ xs Hws X1); [|exact X2].
  rewrite <- (F2_len _ _ _ X1), map_length. lia.
Qed.

(** C59: the counters written for a slice. *)
Theorem C59_effective_epochs_bounded :
  forall (weights : list R),
  (forall w, In w weights -> 0 < w)%R ->
  (weights = [] -> epoch_counts weights = (0, 0, 0%R)) /\
  (weights <> [] -> exists eff,
     epoch_counts weights = (1, Z.of_nat (length weights), eff) /\
     (1 <= eff <= INR (length weights))%R /\
     (eff = INR (length weights) <-> forall w w', In w weights -> In w' weights -> w = w') /\
     (eff = 1%R <-> length weights = 1%nat)).
Proof.
  intros weights Hpos. split; [intros ->; reflexivity|].
  intros Hne. exists (fsum weights / amax weights)%R. split; [destruct weights; [congruence|reflexivity]|].
  destruct (amax_largest weights Hne) as [Hin Hle]. pose proof (Hpos _ Hin) as Hp.
  rewrite R_fsum_total.
  assert (Hnn : forall x, In x weights -> (0 <= x)%R) by (intros x Hx; specialize (Hpos x Hx); lra).
  pose proof (total_le_max weights (amax weights) Hle) as T1.
  pose proof (total_ge_member weights (amax weights) Hnn Hin) as T2.
  assert (Hdiv : forall a, (total weights / amax weights = a <-> total weights = a * amax weights)%R).
  { intros a. split; intros H.
    - rewrite <- H. field. lra.
    - rewrite H. field. lra. }
  split; [|split].
  - split; [apply (Rmult_le_reg_r (amax weights))|apply (Rmult_le_reg_r (amax weights))];
      try assumption; unfold Rdiv; rewrite Rmult_assoc, Rinv_l by lra; lra.
  - rewrite Hdiv, (total_eq_max weights (amax weights) Hle). split.
    + intros Ha w w' Hw Hw'. rewrite (Ha w Hw), (Ha w' Hw'). reflexivity.
    + intros Ha x Hx. now apply Ha.
  - rewrite Hdiv. split.
    + intros Ht. destruct weights as [|x [|y l]]; [congruence|reflexivity|exfalso].
      set (m := amax (x :: y :: l)) in *. clearbody m.
      assert (T : total (x :: y :: l) = (x + (y + total l))%R) by reflexivity.
      assert (Hl : forall z, In z l -> (0 <= z)%R) by (intros; apply Hnn; right; now right).
      pose proof (total_nonneg l Hl). pose proof (Hpos x ltac:(now left)).
      pose proof (Hpos y ltac:(right; now left)).
      destruct Hin as [->|[->|Hin]]; [lra|lra|].
      pose proof (total_ge_member l m Hl Hin). lra.
    + intros L1. destruct weights as [|x [|y l]]; try discriminate. unfold total. cbn. lra.
Qed.

(** C59, double arithmetic: at least 1, and more than the number of images by rounding
    only. *)
Theorem C59_effective_epochs_double :
  forall (weights : list f64) (ws : list R), ordinary_weights weights ws -> weights <> [] ->
  exists eff v,
    epoch_counts weights = (1, Z.of_nat (length weights), eff) /\ f64_is eff v /\
    (1 <= v <= INR (length weights) * (1 + (INR (length weights) + 1) * bpow radix2 (-52)))%R.
Proof.
  intros weights ws (Hw & Hr & Hn) Hne. apply (epochs_of_doubles weights ws Hw Hr Hn).
  intros ->. inversion Hw. congruence.
Qed.

Example C59_example : epoch_counts [1; 2; 1]%R = (1, 3, 2%R).
Proof.
  cbn. f_equal. unfold fsum, fzero, fmax. cbn. unfold Rltb.
  repeat (destruct (Rlt_dec _ _); try lra).
Qed.

(** Concrete, in double arithmetic. *)
Example C59_example_double :
  ordinary_weights [f64_ofZ 1; f64_ofZ 2; f64_ofZ 1] [1; 2; 1]%R /\
  epoch_counts [f64_ofZ 1; f64_ofZ 2; f64_ofZ 1] = (1, 3, f64_ofZ 2).
Proof.
  split; [|vm_compute; reflexivity]. split; [|split].
  - repeat constructor; apply f64_ofZ_is; cbn; lia.
  - assert (B : (bpow radix2 (-450) <= 1)%R) by (change 1%R with (bpow radix2 0); apply bpow_le; lia).
    assert (B' : (2 <= bpow radix2 450)%R) by (change 2%R with (bpow radix2 1); apply bpow_le; lia).
    repeat (apply Forall_cons; [lra|]). apply Forall_nil.
  - cbn. lia.
Qed.

(** Noise values 1, 3, 5, 7: the spread is 5, the weight the double nearest to 1/5. *)
Example C39_example_spread :
  let ds := [f64_ofZ 1; f64_ofZ 3; f64_ofZ 5; f64_ofZ 7] in
  Forall2 f64_is ds [1; 3; 5; 7]%R /\ spread [1; 3; 5; 7]%R = 5%R /\
  (bpow radix2 (-900) <= spread [1; 3; 5; 7])%R /\
  fdiv fone (squared_deviation ds) = fdiv (fofZ 1) (fofZ 5).
Proof.
  intros ds. assert (E : spread [1; 3; 5; 7]%R = 5%R) by (unfold spread; cbn; lra).
  split; [repeat constructor; apply f64_ofZ_is; cbn; lia|]. split; [exact E|]. split.
  - rewrite E. apply Rle_trans with 1%R; [change 1%R with (bpow radix2 0); apply bpow_le; lia|lra].
  - vm_compute. reflexivity.
Qed.

Print Assumptions C39_coadd_exact.
Print Assumptions C39_coadd_succeeds.
Print Assumptions C39_coadd_is_weighted_mean.
Print Assumptions C39_coadd_between_inputs.
Print Assumptions C39_masked_fraction_in_unit_interval.
Print Assumptions C39_coadd_order_independent.
Print Assumptions C39_coadd_is_weighted_mean_double.
Print Assumptions C39_masked_fraction_double.
Print Assumptions C59_effective_epochs_double.
Print Assumptions C59_effective_epochs_bounded.
