(** C39, C82: the sum of the mean PSF in double arithmetic. *)
From Coq Require Import ZArith List Bool Lia Reals Lra.
From Flocq Require Import Core.Raux Core.Zaux.
From Verif Require Import Lib.Base Lib.Floats Model.Coadd Spec.FloatSpec Spec.CoaddSpec Proofs.BaseFacts
  Proofs.F64Facts Proofs.PsfSumF64 Props.PropCoadd.
Import ListNotations.
Open Scope Z_scope.

Lemma F2_length {A B} (R : A -> B -> Prop) l m : Forall2 R l m -> length l = length m.
Proof. intros H. induction H; cbn; congruence. Qed.

(** C39: if the PSF images that contribute sum to one up to [d], the one of the coadd
    sums to one up to [d] and the rounding errors of its pixels. *)
Theorem C39_psf_sums_to_one_double :
  forall (S : Type) (resample : S -> result resampled) (box psf_box : Z) (slices : list S)
         (weights : list f64) (nextra : nat) (out : coadd) (weight : img f64)
         (datas : list resampled) (ws : list R) (d a : R),
  coadd_slice_inputs resample box psf_box slices weights nextra = Ok (out, weight, datas) ->
  ordinary_weights weights ws ->
  (forall res, In res datas -> sums_to_one psf_box d a (rs_psf res)) ->
  nrows (co_psf out) = psf_box /\ ncols (co_psf out) = psf_box /\
  (forall r c, inb (co_psf out) r c -> exists v, f64_is (px (co_psf out) r c) v) /\
  (Rabs (total (map f64_val (ravel (co_psf out))) - 1)
   <= d + (3 * INR (length ws) + 2) * bpow radix2 (-52) * a
      + IZR (Z.max 0 psf_box * Z.max 0 psf_box) * bpow radix2 (-1000))%R.
Proof.
  intros S resample box pbox slices weights nextra out weight datas ws d a E Ho Hd.
  pose proof (C39_coadd_is_weighted_mean_double _ _ _ _ _ _ _ _ _ _ _ E Ho) as [_ H].
  pose proof (C39_coadd_exact _ _ _ _ _ _ _ _ _ _ _ _ E) as X. cbv zeta in X.
  destruct X as (L & Hne & HF & _ & _ & _ & _ & _ & _ & N1 & N2 & _).
  destruct Ho as (Hw & Hr & Hn). pose proof (F2_length _ _ _ Hw) as Lw. pose proof (F2_length _ _ _ HF) as Ld.
  destruct (mean_sums_to_one ws pbox d a (map (@rs_psf _) datas) (fun r c => px (co_psf out) r c)) as [P Q].
  - eapply Forall_impl; [|exact Hr]. intros w [Hw1 _]. pose proof (bpow_gt_0 radix2 (-450)). lra.
  - intros ->. destruct weights; [|discriminate Lw]. destruct slices; [congruence|discriminate L].
  - rewrite map_length. lia.
  - apply Forall_map, Forall_forall. exact Hd.
  - intros r c _. rewrite map_map. apply (H r c).
  - split; [exact N1|]. split; [exact N2|]. split.
    + intros r c [Ir Ic]. apply P. rewrite N1 in Ir. rewrite N2 in Ic. split; assumption.
    + unfold ravel. rewrite map_map, N1, N2.
      erewrite map_ext; [exact Q|]. intros []. reflexivity.
Qed.

(** C82: the same for the numbers in the file, which are means ([averages]) by
    [C82_file_from_the_pixels_double]. *)
Theorem C82_psf_sums_to_one_double :
  forall (ws : list R) (datas : list (resampled (F := f64))) (n : Z) (mean : Z -> Z -> f64) (d a : R),
  Forall (fun w => 0 < w)%R ws -> ws <> [] -> length datas = length ws ->
  (forall res, In res datas -> sums_to_one n d a (rs_psf res)) ->
  (forall y x, averages ws (map (fun res => finite_part (px (rs_psf res) y x)) datas) (mean y x)) ->
  (forall y x, in_box n y x -> exists v, f64_is (mean y x) v) /\
  (Rabs (total (map (fun yx => f64_val (mean (fst yx) (snd yx))) (allpix n n)) - 1)
   <= d + (3 * INR (length ws) + 2) * bpow radix2 (-52) * a
      + IZR (Z.max 0 n * Z.max 0 n) * bpow radix2 (-1000))%R.
Proof.
  intros ws datas n mean d a Hw Hne L Hd Hm.
  apply (mean_sums_to_one ws n d a (map (@rs_psf _) datas) mean); try assumption.
  - now rewrite map_length.
  - apply Forall_map, Forall_forall. exact Hd.
  - intros r c _. rewrite map_map. apply Hm.
Qed.

(** ** Concrete case: two PSFs of 2 x 2 pixels, with weights 1 and 3: one has a quarter in every
    pixel, the other one pixel that is one. *)
Definition psf_of (f : Z -> Z -> f64) : resampled (F := f64) :=
  mkres (full 1 1 fone) [full 1 1 fone] (full 1 1 fzero) (mkimg 2 2 f) (full 1 1 0) (full 1 1 0).
Definition two_psfs (b : bool) : result (resampled (F := f64)) :=
  Ok (if b then psf_of (fun _ _ => fdec 1 4) else psf_of (fun r c => if (r =? 0) && (c =? 0) then fone else fzero)).

Example C39_psf_example_double :
  exists out weight datas,
    coadd_slice_inputs two_psfs 1 2 [true; false] [fofZ 1; fofZ 3] 0 = Ok (out, weight, datas) /\
    ordinary_weights [fofZ 1; fofZ 3] [1; 3]%R /\
    (forall res, In res datas -> sums_to_one 2 0 1 (rs_psf res)) /\
    px (co_psf out) 0 0 = fdec 13 16 /\ px (co_psf out) 1 0 = fdec 1 16.
Proof.
  assert (H0 : f64_is (fzero : f64) 0) by (apply (f64_ofZ_is 0); cbn; lia).
  assert (H1 : f64_is (fone : f64) 1) by (apply (f64_ofZ_is 1); cbn; lia).
  assert (B450 : (1 <= bpow radix2 450)%R) by (change 1%R with (bpow radix2 0); apply bpow_le; lia).
  assert (H4 : f64_is (fdec 1 4 : f64) (/ 4)).
  { split; [reflexivity|]. split; [reflexivity|]. unfold f64_val.
    replace (fdec 1 4 : f64) with (SpecFloat.S754_finite false 4503599627370496 (-54)) by reflexivity.
    cbn [BinarySingleNaN.SF2R]. unfold Defs.F2R. cbn. lra. }
  eexists. eexists. eexists. split; [reflexivity|]. split; [|split].
  - split; [|split].
    + repeat constructor; try (apply (f64_ofZ_is 1); cbn; lia); apply (f64_ofZ_is 3); cbn; lia.
    + assert (B : (bpow radix2 (-450) <= 1)%R) by (change 1%R with (bpow radix2 0); apply bpow_le; lia).
      assert (B' : (4 <= bpow radix2 450)%R) by (change 4%R with (bpow radix2 2); apply bpow_le; lia).
      repeat (apply Forall_cons; [lra|]). apply Forall_nil.
    + cbn. lia.
  - intros res [<-|[<-|[]]]; cbn [rs_psf psf_of]; (split; [reflexivity|]); (split; [reflexivity|]); split.
    + intros r c _. cbn [px]. exists (/ 4)%R. split; [exact H4|]. rewrite Rabs_pos_eq by lra. lra.
    + change (ravel _) with [fdec 1 4 : f64; fdec 1 4; fdec 1 4; fdec 1 4]. unfold total. cbn [map fold_right].
      destruct H4 as (_ & _ & E4). rewrite !E4. rewrite (Rabs_pos_eq (/ 4)) by lra.
      replace (/ 4 + (/ 4 + (/ 4 + (/ 4 + 0))) - 1)%R with 0%R by lra. rewrite Rabs_R0. lra.
    + intros r c _. cbn [px]. destruct ((r =? 0) && (c =? 0)).
      * exists 1%R. split; [exact H1|]. rewrite Rabs_pos_eq by lra. lra.
      * exists 0%R. split; [exact H0|]. rewrite Rabs_R0. lra.
    + change (ravel _) with [fone : f64; fzero; fzero; fzero]. unfold total. cbn [map fold_right].
      destruct H0 as (_ & _ & E0). destruct H1 as (_ & _ & E1). rewrite !E0, !E1.
      rewrite (Rabs_pos_eq 1) by lra. rewrite Rabs_R0.
      replace (1 + (0 + (0 + (0 + 0))) - 1)%R with 0%R by lra. rewrite Rabs_R0. lra.
  - split; vm_compute; reflexivity.
Qed.

Print Assumptions C39_psf_sums_to_one_double.
Print Assumptions C82_psf_sums_to_one_double.
