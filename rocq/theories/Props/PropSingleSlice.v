(** C72: from the single-epoch images to the file. *)
From Coq Require Import ZArith List Bool String Lia Reals Lra Permutation.
From Flocq Require Import Core.
From Coq Require Import List.
From Verif Require Import Lib.Base Lib.PyStr Lib.Floats Model.SliceRange Model.Jobs Model.Gaia
  Model.ObjectData Model.PsfImage Model.SliceInputs Model.Coadd Model.Writer Model.Sched Model.SingleSlice
  Spec.FloatSpec Spec.CoaddSpec Spec.GaiaSpec Spec.WriterSpec Spec.RunSpec Spec.SliceInputsSpec Spec.SingleSliceSpec
  Proofs.BaseFacts Proofs.SliceInputsProofs Proofs.CoaddProofs Proofs.GaiaProofs
  Proofs.SelectProofs Proofs.WeightProofs Proofs.RoundSum Proofs.CoaddF64 Proofs.VarianceF64 Proofs.WeightF64 Proofs.UsedProofs Proofs.SingleSliceProofs Props.PropRun Props.PropSliceInputs.
Import ListNotations.
Open Scope list_scope.
Open Scope Z_scope.

(** C72: the work on a slice meets the assumptions of C31-C35: results are
    labelled with the slice they belong to and have the right shapes. *)
Theorem C72_results_are_labelled :
  forall (F : Type) (FO : FloatOps F) (RNG : Type) (ext : @externals F RNG) sc coadding_weight ti
    i2s jac central buffer width psf_box offset objs n_extra,
  0 <= n_extra ->
  build_object_data i2s jac central buffer width psf_box offset = Ok objs ->
  labelled pixel (list epoch_row) (central + 2 * buffer) psf_box n_extra (Z.of_nat (length objs))
    (fun ss it => coadd_single_slice ext sc coadding_weight ti objs n_extra ss it).
Proof.
  intros F FO RNG ext sc cw ti i2s jac c b w p off objs nx Hx H. apply slice_labelled; [exact Hx|].
  intros ob Hin. apply In_nth_error in Hin as [k Hk].
  exact (proj2 (build_sizes i2s jac c b w p off objs H k ob Hk)).
Qed.

(** C72, any arithmetic: what a completed run leaves in the file at the place of
    each slice that was asked for. *)
Theorem C72_file_contents :
  forall (F : Type) (FO : FloatOps F) (RNG : Type) (ext : @externals F RNG) sc coadding_weight ti
    i2s jac central buffer width psf_box offset objs n_extra,
  0 <= n_extra ->
  build_object_data i2s jac central buffer width psf_box offset = Ok objs ->
  forall zero cast isneg nsrc seed obj0 rng init randint arg h l o,
  let box := central + 2 * buffer in
  let num := Z.of_nat (length objs) in
  forward arg -> valid_how h -> slices_of arg num = Ok l ->
  run_completes pixel (list epoch_row) zero cast isneg box psf_box n_extra num nsrc seed obj0
    rng init randint (fun ss it => coadd_single_slice ext sc coadding_weight ti objs n_extra ss it)
    arg h o ->
  let '(seeds, ss) := all_seeds rng init randint seed num nsrc n_extra in
  forall i, In i l ->
  exists ob kcol krow ra_psf dec_psf mask inputs,
    nth_error objs (Z.to_nat i) = Some ob /\ ob_id ob = i /\
    psf_pixel ext ob kcol krow /\ x_image2sky ext (fofZ kcol) (fofZ krow) = Ok (ra_psf, dec_psf) /\
    star_mask ext sc ti ob = Ok mask /\
    selected ext sc coadding_weight mask ss (nth (Z.to_nat i) seeds 0) ob ra_psf dec_psf inputs /\
    let weights := si_weights inputs in
    In (make_epochs_info i weights (si_slices inputs) (si_not_used inputs) (si_flags inputs))
       (o_epochs pixel _ o) /\
    o_nepoch (o_obj pixel _ o i) = Z.of_nat (length weights) /\
    (weights = [] -> o_nepoch_eff (o_obj pixel _ o i) = fzero /\
       forall e k p, o_fits pixel _ o e = Some k ->
         in_region i (if String.eqb e "psf" then psf_box ^ 2 else box ^ 2) p -> dat pixel k p = zero) /\
    (weights <> [] ->
     exists shape datas psf,
       ti_image_shape ti = Some shape /\
       Forall2 (resampled_to ext ti shape ob kcol krow) (si_slices inputs) datas /\
       holds o "image_cutouts" i box (fun y x => cast "image_cutouts"%string
         (PF (sum_over datas weights (fun d => px (rs_image d) y x)))) /\
       holds o "mfrac_cutouts" i box (fun y x => cast "mfrac_cutouts"%string
         (PF (sum_over datas weights (fun d => unit_fraction (px (rs_interp_frac d) y x))))) /\
       holds o "bmask_cutouts" i box (fun y x => cast "bmask_cutouts"%string
         (PI (union_over datas (fun d => px (rs_pmask d) y x)))) /\
       holds o "ormask_cutouts" i box (fun y x => cast "ormask_cutouts"%string
         (PI (union_over datas (fun d => px (rs_bmask d) y x)))) /\
       (forall k, Z.of_nat k <= n_extra ->
          holds o (noise_name k) i box (fun y x => cast "noise_cutouts"%string
            (PF (sum_over datas weights (noise_at k y x))))) /\
       holds o "weight_cutouts" i box (fun y x => cast "weight_cutouts"%string
         (PF (fdiv fone (squared_deviation (map (fun yx => sum_over datas weights (noise_at 0 (fst yx) (snd yx)))
                                     (allpix box box)))))) /\
       nrows psf = psf_box /\ ncols psf = psf_box /\
       (forall y x, px psf y x = sum_over datas weights (fun d => finite_part (px (rs_psf d) y x))) /\
       holds o "psf" i psf_box (fun y x => cast "psf"%string (PF (px psf y x))) /\
       o_psf_sigma (o_obj pixel _ o i) = x_measure_fwhm ext psf /\
       o_nepoch_eff (o_obj pixel _ o i) = fdiv (fsum weights) (running_max weights)).
Proof.
  intros F FO RNG ext sc cw ti i2s jac central buffer width psf_box offset objs n_extra Hx Hb
    zero cast isneg nsrc seed obj0 rng init randint arg h l o box num Hf Vh Hl Hrun.
  pose proof (C34_run_contents F FO pixel (list epoch_row) zero cast isneg box psf_box n_extra num nsrc seed obj0
    rng init randint _ Hx (Nat2Z.is_nonneg _)
    (C72_results_are_labelled F FO RNG ext sc cw ti i2s jac central buffer width psf_box offset objs n_extra Hx Hb)
    arg h l o Hf Vh Hl Hrun) as HC.
  destruct (all_seeds rng init randint seed num nsrc n_extra) as [seeds ss].
  destruct HC as (HC & _). intros i Hi. destruct (HC i Hi) as (Bi & r & Ew & Ri & Hs).
  destruct (slice_inv ext sc cw ti objs n_extra ss i _ r (proj1 Bi) Ew)
    as (ob & kcol & krow & ra & de & mask & inputs & Eo & Hp & Hsky & _ & Hm & Hsel & _ & Rw & Re & Hd).
  destruct (build_sizes i2s jac _ _ _ _ _ objs Hb _ ob Eo) as (Oid & Obox & Opsf).
  rewrite Z2Nat.id in Oid by lia. rewrite Oid in Re, Hd.
  exists ob, kcol, krow, ra, de, mask, inputs.
  split; [exact Eo|]. split; [exact Oid|]. split; [exact Hp|]. split; [exact Hsky|]. split; [exact Hm|].
  split; [exact Hsel|]. cbv zeta. unfold stored in Hs. rewrite Ri in Hs.
  destruct Hs as (S1 & S2 & S3). rewrite Re in S1. split; [exact S1|].
  unfold has_data in S2, S3. rewrite Rw in S2, S3.
  destruct (si_weights inputs) as [|w0 ws0] eqn:EW.
  { destruct (S3 ltac:(intros X; apply X; reflexivity)) as (Z1 & Z2 & Z3 & _).
    split; [exact Z2|]. split; [intros _; split; [exact Z3|exact Z1]|]. intros X. exfalso. apply X. reflexivity. }
  rewrite <- EW in *. assert (NE : si_weights inputs <> []) by (rewrite EW; discriminate).
  destruct (S2 NE) as (S4 & _ & S5 & S7 & S6 & _). clear S2 S3.
  split; [exact S5|]. split; [intros X; contradiction|]. intros _.
  destruct (Hd NE) as (shape & co & w & datas & Esh & Ec & Er).
  rewrite Obox, Opsf in Ec. fold box in Ec.
  destruct (coadd_spec _ _ _ _ _ _ _ _ _ Ec) as
    (LL & _ & FD & A1 & A2 & A3 & A4 & A5 & A6 & A7 & A8 & A9 & A10 & A11 & A12 & A13 & A14 & A15 & A16).
  exists shape, datas, (co_psf co). split; [exact Esh|]. split.
  { clear - FD Obox Opsf. induction FD as [|u d us ds Hu _ IH]; constructor; [|exact IH].
    unfold resampled_to. rewrite Obox, Opsf. exact Hu. }
  rewrite Er in S6. cbn [r_psf_sigma] in S6.
  assert (HO : forall e info a g, belongs pixel (list epoch_row) r e info a ->
    nrows a = box -> ncols a = box -> String.eqb e "psf" = false ->
    (forall y x, px a y x = g y x) -> holds o e i box (fun y x => cast info (g y x))).
  { intros e info a g Ha Nr Nc Np Hg. destruct (S4 e info a Ha) as (k & Ek & Hk). rewrite Np, Nc in Hk.
    exists k. split; [exact Ek|]. intros y x Hy Hxx. rewrite Hk; [rewrite Hg; reflexivity|].
    split; lia. }
  assert (UB : forall (f : @resampled F -> img Z) (m : img Z) y x,
     (forall k, Z.testbit (px m y x) k = true <-> exists d, In d datas /\ Z.testbit (px (f d) y x) k = true) ->
     px m y x = union_over datas (fun d => px (f d) y x)).
  { intros f m y x H. apply Z.bits_inj'. intros k _. unfold union_over.
    assert (U : Z.testbit (fold_right Z.lor 0 (map (fun d => px (f d) y x) datas)) k = true <->
                exists d, In d datas /\ Z.testbit (px (f d) y x) k = true).
    { clear. induction datas as [|d ds IH]; cbn [map fold_right].
      - rewrite Z.bits_0. split; [discriminate|]. intros (d & [] & _).
      - rewrite Z.lor_spec, orb_true_iff, IH. split.
        + intros [A|(d' & I & A)]; [exists d; split; [left; reflexivity|exact A]|exists d'; split; [right; exact I|exact A]].
        + intros (d' & [<-|I] & A); [left; exact A|right; exists d'; auto]. }
    specialize (H k). rewrite <- U in H.
    destruct (Z.testbit (px m y x) k), (Z.testbit (fold_right _ _ _) k); try reflexivity;
      [symmetry|]; apply H; reflexivity. }
  assert (NZ : forall k, (k < S (Z.to_nat n_extra))%nat -> exists a,
     nth_error (co_noises co) k = Some a /\ nrows a = box /\ ncols a = box /\
     forall y x, px a y x = sum_over datas (si_weights inputs) (noise_at k y x)).
  { intros k Hk. destruct (A16 0 0) as (_ & _ & _ & _ & _ & A).
    destruct (A k Hk) as (a & ds & Ea & Na & Nc & _). exists a. split; [exact Ea|]. split; [exact Na|].
    split; [exact Nc|]. intros y x. destruct (A16 y x) as (_ & _ & _ & _ & _ & A').
    destruct (A' k Hk) as (a' & ds' & Ea' & _ & _ & Fds & Px).
    rewrite Ea in Ea'. injection Ea' as <-. rewrite Px. unfold sum_over. do 2 f_equal.
    clear - Fds. induction Fds as [|d n l m Hn _ IH]; [reflexivity|]. cbn [map]. rewrite IH. f_equal.
    unfold noise_at. f_equal. symmetry. apply nth_error_nth with (1 := Hn). }
  split. { apply HO with (a := imap PF (co_image co)); try assumption; try reflexivity; [rewrite Er; constructor|].
    intros y x. cbn [imap px]. destruct (A16 y x) as (-> & _). reflexivity. }
  split. { apply HO with (a := imap PF (co_mfrac co)); try assumption; try reflexivity; [rewrite Er; constructor|].
    intros y x. cbn [imap px]. destruct (A16 y x) as (_ & _ & -> & _). reflexivity. }
  split. { apply HO with (a := imap PI (co_bmask co)); try assumption; try reflexivity; [rewrite Er; constructor|].
    intros y x. cbn [imap px]. destruct (A16 y x) as (_ & _ & _ & A & _). rewrite (UB rs_pmask _ _ _ A). reflexivity. }
  split. { apply HO with (a := imap PI (co_ormask co)); try assumption; try reflexivity; [rewrite Er; constructor|].
    intros y x. cbn [imap px]. destruct (A16 y x) as (_ & _ & _ & _ & A & _). rewrite (UB rs_bmask _ _ _ A). reflexivity. }
  split. { intros k Hk. destruct (NZ k ltac:(lia)) as (a & Ea & Na & Nc & Pa).
    assert (En : nth_error (r_noises pixel (list epoch_row) r) k = Some (imap PF a)).
    { rewrite Er. cbn [r_noises]. rewrite nth_error_map, Ea. reflexivity. }
    apply HO with (a := imap PF a); try assumption.
    - destruct k as [|k]; [apply b_noise; exact En|apply b_extra; [lia|exact En]].
    - destruct k; reflexivity.
    - intros y x. cbn [imap px]. rewrite Pa. reflexivity. }
  split. { apply HO with (a := imap PF w); try assumption; try reflexivity; [rewrite Er; constructor|].
    intros y x. cbn [imap px]. destruct A15 as (n0 & En & ->). rewrite variance_deviation.
    destruct (NZ 0%nat ltac:(lia)) as (a & Ea & Na & Nc & Pa). rewrite En in Ea. injection Ea as <-.
    do 3 f_equal. unfold ravel. rewrite Na, Nc. apply map_ext. intros [u v]. apply Pa. }
  split; [exact A7|]. split; [exact A8|].
  split. { intros y x. destruct (A16 y x) as (_ & -> & _). unfold sum_over. do 2 f_equal. apply map_ext. intros d. apply finite_or_zero_part. }
  split; [|split; [exact S6|exact S7]].
  destruct (S4 "psf"%string "psf"%string (imap PF (co_psf co))) as (k & Ek & Hk); [rewrite Er; constructor|].
  cbn [imap ncols px] in Hk. rewrite A8 in Hk. exists k. split; [exact Ek|]. intros y x Hy Hxx.
  apply Hk. split; cbn [imap nrows ncols]; [rewrite A7|rewrite A8]; lia.
Qed.

(** C72, exact arithmetic: each slice in the file is the mean of images that
    contribute to it, with positive weights that add up to one. *)
Theorem C72_file_is_weighted_mean :
  forall (RNG : Type) (ext : @externals R RNG) sc coadding_weight ti
    i2s jac central buffer width psf_box offset objs n_extra,
  0 <= n_extra ->
  build_object_data i2s jac central buffer width psf_box offset = Ok objs ->
  forall zero cast isneg nsrc seed obj0 rng init randint arg h l o,
  let box := central + 2 * buffer in
  let num := Z.of_nat (length objs) in
  well_behaved ext coadding_weight (snd (all_seeds rng init randint seed num nsrc n_extra)) box ->
  forward arg -> valid_how h -> slices_of arg num = Ok l ->
  run_completes pixel (list epoch_row) zero cast isneg box psf_box n_extra num nsrc seed obj0
    rng init randint (fun ss it => coadd_single_slice ext sc coadding_weight ti objs n_extra ss it)
    arg h o ->
  forall i, In i l ->
  exists ob ra_psf dec_psf (cs : list contribution),
    nth_error objs (Z.to_nat i) = Some ob /\
    (forall c, In c cs -> (0 < ct_weight c)%R /\
       comes_from sc (x_sources ext (snd (all_seeds rng init randint seed num nsrc n_extra))
                     (ob_ra ob) (ob_dec ob) ra_psf dec_psf box) (ct_slice c)) /\
    (cs <> [] -> total (map ct_weight cs) = 1%R) /\
    (exists kcol krow col row, x_sky2image ext (ob_ra ob) (ob_dec ob) = Ok (col, row) /\
       (IZR kcol - 1 / 2 <= col < IZR kcol + 1 / 2)%R /\
       (IZR krow - 1 / 2 <= row < IZR krow + 1 / 2)%R /\
       x_image2sky ext (IZR kcol) (IZR krow) = Ok (ra_psf, dec_psf) /\
       forall c, In c cs -> exists shape, ti_image_shape ti = Some shape /\
         resampled_to ext ti shape ob kcol krow (ct_slice c) (ct_data c)) /\
    o_nepoch (o_obj pixel _ o i) = Z.of_nat (length cs) /\
    (cs = [] -> o_nepoch_eff (o_obj pixel _ o i) = 0%R) /\
    (cs <> [] -> exists m, largest (map ct_weight cs) m /\ o_nepoch_eff (o_obj pixel _ o i) = (1 / m)%R) /\
    (cs <> [] ->
       holds o "image_cutouts" i box (fun y x => cast "image_cutouts"%string
         (PF (mean_over cs (fun d => px (rs_image d) y x)))) /\
       holds o "psf" i psf_box (fun y x => cast "psf"%string
         (PF (mean_over cs (fun d => px (rs_psf d) y x)))) /\
       holds o "mfrac_cutouts" i box (fun y x => cast "mfrac_cutouts"%string
         (PF (mean_over cs (fun d => Rmin (Rabs (px (rs_interp_frac d) y x)) 1)))) /\
       (forall k, Z.of_nat k <= n_extra ->
          holds o (noise_name k) i box (fun y x => cast "noise_cutouts"%string
            (PF (mean_over cs (noise_at k y x))))) /\
       holds o "weight_cutouts" i box (fun y x => cast "weight_cutouts"%string
         (PF (1 / spread (map (fun yx => mean_over cs (noise_at 0 (fst yx) (snd yx)))
                            (allpix box box)))%R)) /\
       (forall y x, exists b m : Z,
          (forall k, Z.testbit b k = true <->
             exists c, In c cs /\ Z.testbit (px (rs_pmask (ct_data c)) y x) k = true) /\
          (forall k, Z.testbit m k = true <->
             exists c, In c cs /\ Z.testbit (px (rs_bmask (ct_data c)) y x) k = true) /\
          (forall hb, 0 <= y < box -> 0 <= x < box -> o_fits pixel _ o "bmask_cutouts"%string = Some hb ->
             dat pixel hb (i * box ^ 2 + y * box + x) = cast "bmask_cutouts"%string (PI b)) /\
          (forall ho, 0 <= y < box -> 0 <= x < box -> o_fits pixel _ o "ormask_cutouts"%string = Some ho ->
             dat pixel ho (i * box ^ 2 + y * box + x) = cast "ormask_cutouts"%string (PI m)))).
Proof.
  intros RNG ext sc cw ti i2s jac central buffer width psf_box offset objs n_extra Hx Hb
    zero cast isneg nsrc seed obj0 rng init randint arg h l o box num Hwb Hf Vh Hl Hrun.
  pose proof (C72_file_contents R ROps RNG ext sc cw ti i2s jac central buffer width psf_box offset objs n_extra Hx Hb
    zero cast isneg nsrc seed obj0 rng init randint arg h l o Hf Vh Hl Hrun) as HC.
  fold box num in HC. destruct (all_seeds rng init randint seed num nsrc n_extra) as [seeds ss].
  cbn [snd] in *. intros i Hi.
  destruct (HC i Hi) as (ob & kcol & krow & ra & de & mask & inputs & Eo & _ & (col & row & Esky & Fc & Fr) & Ei2s & _ & (rng' & Esel) & _ & Nep & Nz & Hd).
  destruct (build_sizes i2s jac _ _ _ _ _ objs Hb _ ob Eo) as (_ & Obox & _). fold box in Obox.
  assert (Hsh : forall src s, In src (x_sources ext ss (ob_ra ob) (ob_dec ob) ra de (ob_box_size ob)) ->
            src_slice src = Ok s -> exists nr nc, shaped nr nc s)
    by (rewrite Obox; intros; eapply wb_shapes; eauto).
  assert (Hmg : forall f s g nr nc,
     option_map (fun m => x_map_mask ext m (ob_orig_start_row ob) (ob_orig_start_col ob)) mask = Some f ->
     shaped nr nc s -> cut_out_of (x_sources ext ss (ob_ra ob) (ob_dec ob) ra de (ob_box_size ob)) s ->
     f s = Ok g -> shape_is nr nc g).
  { intros f s g nr nc Ef. destruct mask as [m|]; [|discriminate]. cbn in Ef. injection Ef as <-.
    intros Hs Hc Eg. refine (wb_mask _ _ _ _ Hwb m _ _ s g nr nc Hs _ Eg).
    exists (ob_ra ob), (ob_dec ob), ra, de. rewrite <- Obox. exact Hc. }
  destruct (weights_normalised _ _ _ _ _ _ _ _ _ _ _ _ _ (wb_normal _ _ _ _ Hwb) Hsh Hmg Esel)
    as (raw & _ & _ & _ & Lw & Pw & Tw).
  { intros Ecw u Hu. apply (wb_fwhm _ _ _ _ Hwb). exact Ecw. }
  assert (NP : exists col row, x_sky2image ext (ob_ra ob) (ob_dec ob) = Ok (col, row) /\
       (IZR kcol - 1 / 2 <= col < IZR kcol + 1 / 2)%R /\
       (IZR krow - 1 / 2 <= row < IZR krow + 1 / 2)%R).
  { exists col, row. split; [exact Esky|]. cbn [ffloor ROps fadd] in Fc, Fr.
    injection Fc as Fc. injection Fr as Fr. change (@fhalf R ROps) with (1 / 2)%R in *.
    pose proof (Zfloor_lb (col + 1 / 2)). pose proof (Zfloor_ub (col + 1 / 2)).
    pose proof (Zfloor_lb (row + 1 / 2)). pose proof (Zfloor_ub (row + 1 / 2)).
    rewrite Fc in *. rewrite Fr in *. lra. }
  destruct NP as (col' & row' & NP1 & NP2 & NP3).
  destruct (si_weights inputs) as [|w0 ws0] eqn:EW.
  { exists ob, ra, de, []. split; [exact Eo|]. split; [intros c []|]. split; [congruence|].
    split; [exists kcol, krow, col', row'; repeat (split; [assumption|]); intros c []|].
    split; [exact Nep|]. split; [intros _; exact (proj1 (Nz eq_refl))|]. split; congruence. }
  rewrite <- EW in *. assert (NE : si_weights inputs <> []) by (rewrite EW; discriminate).
  assert (NS : si_slices inputs <> []).
  { intros X. rewrite X in Lw. destruct (si_weights inputs); [congruence|discriminate]. }
  destruct (Hd NE) as (shape & datas & psf & Esh & FD & H1 & H2 & H3 & H4 & H5 & H6 & _ & _ & H7 & H8 & _ & H9).
  clear Hd. pose proof (Tw NS) as Tw1. clear Tw.
  assert (LD : length datas = length (si_slices inputs)).
  { clear - FD. induction FD; cbn; congruence. }
  set (cs := map (fun t => mkcontr (fst (fst t)) (snd (fst t)) (snd t))
               (combine (combine (si_slices inputs) (si_weights inputs)) datas)).
  assert (CS : map ct_slice cs = si_slices inputs /\ map ct_weight cs = si_weights inputs /\
               map ct_data cs = datas).
  { unfold cs. rewrite !map_map. cbn [ct_slice ct_weight ct_data].
    clear - Lw LD. revert Lw LD. generalize (si_slices inputs) (si_weights inputs). intros us ws Lw LD.
    revert us ws Lw LD. induction datas as [|d ds IH]; intros [|u us] [|w ws] L1 L2;
      try discriminate; [repeat split|]. cbn [combine map fst snd].
    destruct (IH us ws ltac:(cbn in *; lia) ltac:(cbn in *; lia)) as (A & B & C).
    rewrite A, B, C. repeat split. }
  destruct CS as (C1 & C2 & C3).
  assert (NC : cs <> []).
  { intros X. rewrite X in C1. cbn in C1. congruence. }
  assert (SO : forall f, sum_over datas (si_weights inputs) f = mean_over cs f).
  { intros f. unfold sum_over. rewrite running_weighted, R_fsum_total. cbn [fdiv ROps].
    rewrite weighted_normalised. change (total (si_weights inputs)) with (fold_right Rplus 0%R (si_weights inputs)).
    rewrite Tw1. unfold Rdiv. rewrite Rinv_1, Rmult_1_r. rewrite <- C2, <- C3. unfold mean_over, weighted_sum. clear.
    induction cs as [|c cs IH]; [reflexivity|]. cbn [map combine fold_right fst snd]. rewrite IH. ring. }
  exists ob, ra, de, cs. split; [exact Eo|]. split.
  { intros c Hc. split.
    - rewrite Forall_forall in Pw. apply Pw. rewrite <- C2. apply in_map. exact Hc.
    - rewrite Obox in Esel, Hsh, Hmg.
      destruct (build_used _ _ _ _ _ _ _ (wb_normal _ _ _ _ Hwb) _ _ _ _ _ _ Hsh Hmg Esel (ct_slice c))
        as (src & s0 & U1 & U2 & U3 & U4 & U5 & U6).
      { rewrite <- C1. apply in_map. exact Hc. }
      unfold candidate in U2. rewrite !andb_true_iff, Z.eqb_eq in U2. destruct U2 as [[V1 V2] V3].
      exists src, s0. repeat (split; [assumption|]). intros Hr. apply U6; [| |exact Hr].
      + intros x y. cbn [feqb ROps]. unfold Reqb. destruct (Req_EM_T x y) as [->|]; [|discriminate].
        destruct (Req_EM_T y y); [reflexivity|congruence].
      + intros x y z. cbn [feqb ROps]. unfold Reqb. destruct (Req_EM_T x y) as [->|]; [auto|discriminate]. }
  split; [intros _; rewrite C2; exact Tw1|].
  split.
  { exists kcol, krow, col', row'. repeat (split; [assumption|]). intros c Hc. exists shape. split; [exact Esh|].
    rewrite <- C1, <- C3 in FD. clear - FD Hc. induction cs as [|c0 cs IH]; [destruct Hc|].
    cbn [map] in FD. inversion FD; subst. destruct Hc as [<-|Hc]; [assumption|auto]. }
  split; [rewrite Nep, <- C2, map_length; reflexivity|].
  split; [intros X; contradiction|].
  split. { intros _. exists (running_max (si_weights inputs)). rewrite C2. split; [exact (amax_largest _ NE)|].
    rewrite H9, R_fsum_total. change (total (si_weights inputs)) with (fold_right Rplus 0%R (si_weights inputs)).
    rewrite Tw1. reflexivity. }
  intros _.
  assert (HX : forall e n (f g : Z -> Z -> pixel), (forall y x, f y x = g y x) -> holds o e i n f -> holds o e i n g).
  { intros e n f g Efg (k & A & B). exists k. split; [exact A|]. intros y x Hy Hxx. rewrite B by assumption. apply Efg. }
  split. { eapply HX; [|exact H1]. intros y x. cbv beta. rewrite SO. reflexivity. }
  split. { eapply HX; [|exact H8]. intros y x. cbv beta. rewrite H7, SO. reflexivity. }
  split. { eapply HX; [|exact H2]. intros y x. cbv beta. rewrite SO. do 2 f_equal.
    unfold mean_over. clear. induction cs as [|c cs IH]; [reflexivity|]. cbn [fold_right].
    rewrite IH. f_equal. f_equal. exact (clip01_value _). }
  split. { intros k Hk. eapply HX; [|exact (H5 k Hk)]. intros y x. cbv beta. rewrite SO. reflexivity. }
  split. { eapply HX; [|exact H6]. intros y x. cbv beta. rewrite <- variance_deviation, variance_spread. do 2 f_equal.
    change (@fone R ROps) with 1%R. cbn [fdiv ROps]. do 2 f_equal. apply map_ext. intros yx. apply SO. }
  intros y x. exists (union_over datas (fun d => px (rs_pmask d) y x)), (union_over datas (fun d => px (rs_bmask d) y x)).
  assert (UB : forall (f : @resampled R -> Z) k, Z.testbit (union_over datas f) k = true <->
     exists c, In c cs /\ Z.testbit (f (ct_data c)) k = true).
  { intros f k. unfold union_over. rewrite <- C3, map_map. clear. induction cs as [|c cs IH]; cbn [map fold_right].
    - rewrite Z.bits_0. split; [discriminate|]. intros (d & [] & _).
    - rewrite Z.lor_spec, orb_true_iff, IH. split.
      + intros [A|(d' & I & A)]; [exists c; split; [left; reflexivity|exact A]|exists d'; split; [right; exact I|exact A]].
      + intros (d' & [<-|I] & A); [left; exact A|right; exists d'; auto]. }
  split; [apply (UB (fun d => px (rs_pmask d) y x))|]. split; [apply (UB (fun d => px (rs_bmask d) y x))|].
  split.
  - intros hb Hy Hxx E1. destruct H3 as (k & E2 & B). assert (k = hb) as -> by congruence. apply B; assumption.
  - intros hb Hy Hxx E1. destruct H4 as (k & E2 & B). assert (k = hb) as -> by congruence. apply B; assumption.
Qed.

(** C72, double arithmetic: the weights are doubles near the raw weights divided
    by their sum, and the images in the file are weighted means up to rounding. *)
Theorem C72_file_is_weighted_mean_double :
  forall (RNG : Type) (ext : @externals f64 RNG) sc coadding_weight ti
    i2s jac central buffer width psf_box offset objs n_extra,
  0 <= n_extra ->
  build_object_data i2s jac central buffer width psf_box offset = Ok objs ->
  forall zero cast isneg nsrc seed obj0 rng init randint arg h l o,
  let box := central + 2 * buffer in
  let num := Z.of_nat (length objs) in
  right_shapes ext (snd (all_seeds rng init randint seed num nsrc n_extra)) box ->
  forward arg -> valid_how h -> slices_of arg num = Ok l ->
  run_completes pixel (list epoch_row) zero cast isneg box psf_box n_extra num nsrc seed obj0
    rng init randint (fun ss it => coadd_single_slice ext sc coadding_weight ti objs n_extra ss it)
    arg h o ->
  let '(seeds, ss) := all_seeds rng init randint seed num nsrc n_extra in
  forall i, In i l ->
  exists ob kcol krow ra_psf dec_psf mask inputs,
    nth_error objs (Z.to_nat i) = Some ob /\
    psf_pixel ext ob kcol krow /\ x_image2sky ext (fofZ kcol) (fofZ krow) = Ok (ra_psf, dec_psf) /\
    star_mask ext sc ti ob = Ok mask /\
    selected ext sc coadding_weight mask ss (nth (Z.to_nat i) seeds 0) ob ra_psf dec_psf inputs /\
    (si_slices inputs <> [] -> ordinary_inputs (x_measure_fwhm ext) coadding_weight (si_slices inputs) ->
     let n := INR (length (si_slices inputs)) in
     exists shape datas raw ps,
       ti_image_shape ti = Some shape /\
       Forall2 (resampled_to ext ti shape ob kcol krow) (si_slices inputs) datas /\
       Forall2 (raw_weight_double (x_measure_fwhm ext) coadding_weight) (si_slices inputs) raw /\
       Forall2 (fun p x => 0 < p <= 1 /\ 0 < x /\
         Rabs (p - x / total raw) <= (n + 9) * bpow radix2 (-52) * (x / total raw))%R ps raw /\
       In (make_epochs_info i (si_weights inputs) (si_slices inputs) (si_not_used inputs) (si_flags inputs))
         (o_epochs pixel _ o) /\
       Forall2 f64_is (si_weights inputs) ps /\
       (Rabs (total ps - 1) <= (n + 1) * bpow radix2 (-52))%R /\
       holds_mean o "image_cutouts" i box (cast "image_cutouts"%string) ps
         (fun y x => map (fun d => px (rs_image d) y x) datas) /\
       holds_mean o "mfrac_cutouts" i box (cast "mfrac_cutouts"%string) ps
         (fun y x => map (fun d => unit_fraction (px (rs_interp_frac d) y x)) datas) /\
       holds_mean o "psf" i psf_box (cast "psf"%string) ps
         (fun y x => map (fun d => finite_part (px (rs_psf d) y x)) datas) /\
       (forall k, Z.of_nat k <= n_extra ->
          holds_mean o (noise_name k) i box (cast "noise_cutouts"%string) ps
            (fun y x => map (noise_at k y x) datas)) /\
       (exists noise w,
          holds o (noise_name 0) i box (fun y x => cast "noise_cutouts"%string (PF (noise y x))) /\
          (forall y x, averages ps (map (noise_at 0 y x) datas) (noise y x)) /\
          holds o "weight_cutouts" i box (fun _ _ => cast "weight_cutouts"%string (PF w)) /\
          inverse_spread (map (fun yx => noise (fst yx) (snd yx)) (allpix box box)) w) /\
       holds o "bmask_cutouts" i box (fun y x => cast "bmask_cutouts"%string
         (PI (union_over datas (fun d => px (rs_pmask d) y x)))) /\
       holds o "ormask_cutouts" i box (fun y x => cast "ormask_cutouts"%string
         (PI (union_over datas (fun d => px (rs_bmask d) y x)))) /\
       o_nepoch (o_obj pixel _ o i) = Z.of_nat (length (si_slices inputs)) /\
       exists v, f64_is (o_nepoch_eff (o_obj pixel _ o i)) v /\
         (1 <= v <= n * (1 + (n + 1) * bpow radix2 (-52)))%R).
Proof.
  intros RNG ext sc cw ti i2s jac central buffer width psf_box offset objs n_extra Hx Hb
    zero cast isneg nsrc seed obj0 rng init randint arg h l o box num Hsp Hf Vh Hl Hrun.
  pose proof (C72_file_contents f64 F64Ops RNG ext sc cw ti i2s jac central buffer width psf_box offset objs n_extra Hx Hb
    zero cast isneg nsrc seed obj0 rng init randint arg h l o Hf Vh Hl Hrun) as HC.
  fold box num in HC. destruct (all_seeds rng init randint seed num nsrc n_extra) as [seeds ss].
  cbn [snd] in *. intros i Hi.
  destruct (HC i Hi) as (ob & kcol & krow & ra & de & mask & inputs & Eo & _ & Hp & Ei2s & Hm & Hsel & Hep & Nep & _ & Hd).
  exists ob, kcol, krow, ra, de, mask, inputs. split; [exact Eo|]. split; [exact Hp|].
  split; [exact Ei2s|]. split; [exact Hm|]. split; [exact Hsel|]. intros NS Ho.
  set (n := INR (length (si_slices inputs))).
  destruct (build_sizes i2s jac _ _ _ _ _ objs Hb _ ob Eo) as (_ & Obox & _). fold box in Obox.
  assert (Hsh : forall src s, In src (x_sources ext ss (ob_ra ob) (ob_dec ob) ra de (ob_box_size ob)) ->
            src_slice src = Ok s -> exists nr nc, shaped nr nc s)
    by (rewrite Obox; intros; eapply rs_slices; eauto).
  assert (Hmg : forall f s g nr nc,
     option_map (fun m => x_map_mask ext m (ob_orig_start_row ob) (ob_orig_start_col ob)) mask = Some f ->
     shaped nr nc s -> cut_out_of (x_sources ext ss (ob_ra ob) (ob_dec ob) ra de (ob_box_size ob)) s ->
     f s = Ok g -> shape_is nr nc g).
  { intros f s g nr nc Ef. destruct mask as [m|]; [|discriminate]. cbn in Ef. injection Ef as <-.
    intros Hs Hc Eg. refine (rs_mask _ _ _ Hsp m _ _ s g nr nc Hs _ Eg).
    exists (ob_ra ob), (ob_dec ob), ra, de. rewrite <- Obox. exact Hc. }
  destruct Hsel as (rng' & Esel).
  destruct (weights_normalised_double _ _ _ _ _ _ _ _ _ _ _ _ _ (rs_normal _ _ _ Hsp) Hsh Hmg Esel Ho)
    as (raw & ps & R1 & R2 & R3 & R4 & R5).
  cbn [cf_coadding_weight] in *. fold n in R4, R5.
  pose proof (F2_len _ _ _ R1) as L1. pose proof (F2_len _ _ _ R3) as L3. pose proof (F2_len _ _ _ R4) as L4.
  assert (NE : si_weights inputs <> []).
  { intros X. rewrite X in L3. destruct ps; [|discriminate]. destruct raw; [|discriminate].
    destruct (si_slices inputs); [congruence|discriminate]. }
  assert (NP : ps <> []).
  { intros ->. destruct (si_weights inputs); [congruence|discriminate]. }
  assert (B450 : (1 <= bpow radix2 450)%R) by (change 1%R with (bpow radix2 0); apply bpow_le; lia).
  assert (OW : ordinary_weights (si_weights inputs) ps).
  { split; [exact R3|]. split.
    - revert R4. generalize (fold_right Rplus 0%R raw). intros T R4. clear - R4 B450.
      induction R4 as [|p x ps0 xs [H _] _ IH]; constructor; [lra|exact IH].
    - destruct Ho as (_ & _ & Hc). rewrite L4, <- L1. exact Hc. }
  destruct OW as (W1 & W2 & W3).
  destruct (Hd NE) as (shape & datas & psf & Esh & FD & H1 & H2 & H3 & H4 & H5 & H6 & _ & _ & H7 & H8 & _ & H9).
  pose proof (F2_len _ _ _ FD) as LD.
  exists shape, datas, raw, ps. split; [exact Esh|]. split; [exact FD|]. split; [exact R1|].
  split.
  { change (fold_right Rplus 0%R raw) with (total raw) in R4. revert R4. generalize (total raw). intros T R4.
    clear - R4 R2. revert R2. induction R4 as [|p x ps xs [H H0] _ IH]; intros R2; constructor.
    - inversion R2; subst. pose proof (bpow_gt_0 radix2 (-450)). repeat split; try lra; exact H0.
    - apply IH. now inversion R2. }
  split; [exact Hep|]. split; [exact R3|]. split; [exact (R5 NS)|].
  assert (MD : forall f, averages ps (map f datas) (sum_over datas (si_weights inputs) f)).
  { intros f. unfold sum_over. apply mean_of_doubles; try assumption. rewrite map_length. lia. }
  split; [|split; [|split; [|split; [|split; [|split; [exact H3|split; [exact H4|]]]]]]].
  - eexists. split; [exact H1|]. intros y x. apply MD.
  - eexists. split; [exact H2|]. intros y x. apply MD.
  - eexists. split; [exact H8|]. intros y x. cbv beta. rewrite H7. apply MD.
  - intros k Hk. eexists. split; [exact (H5 k Hk)|]. intros y x. apply MD.
  - do 2 eexists. split; [exact (H5 0%nat ltac:(lia))|]. split; [intros y x; apply MD|].
    split; [exact H6|]. apply inverse_spread_is.
  - assert (LL : length (si_weights inputs) = length (si_slices inputs)) by lia.
    split; [rewrite Nep, LL; reflexivity|].
    destruct (epochs_of_doubles _ _ W1 W2 W3 NP) as (eff & v & E1 & E2 & E3).
    exists v. rewrite LL in E3. fold n in E3. split; [|exact E3]. rewrite H9.
    unfold epoch_counts in E1. destruct (si_weights inputs); [congruence|].
    injection E1 as E1. rewrite <- E1 in E2. exact E2.
Qed.

(** C72, exact arithmetic: there is a star mask exactly if stars are given and
    asked for, and it has the stars of the catalogue in the pixels of the stamp. *)
Theorem C72_star_mask :
  forall (RNG : Type) (ext : @externals R RNG) (inside : R -> R -> R -> Prop) sc ti ob mask,
  draws inside (x_make_foreground_bmask ext) ->
  star_mask ext sc ti ob = Ok mask ->
  (mask = None <-> ti_gaia_stars ti = None \/ sc_gaia_star_masks sc = None) /\
  forall m gc catalogue, mask = Some m -> sc_gaia_star_masks sc = Some gc ->
    ti_gaia_stars ti = Some catalogue -> gc_symmetrize gc = false ->
    nrows m = ob_box_size ob /\ ncols m = ob_box_size ob /\
    forall r c, inb m r c ->
      (px m r c = true <->
       pixel_in_a_star inside (x_sky2image ext)
         (fun mag => x_to_f4 ext (x_pow10 ext (poly_value (gc_poly_coeffs gc) mag)))
         (gc_max_g_mag gc) (ti_position_offset ti) catalogue
         (ob_orig_start_row ob + IZR r)%R (ob_orig_start_col ob + IZR c)%R).
Proof.
  intros RNG ext inside sc ti ob mask Hd H. unfold star_mask in H. 
  destruct (ti_gaia_stars ti) as [cat|]; [destruct (sc_gaia_star_masks sc) as [gc0|]|].
  - apply bind_ok in H as (stars & E1 & H). apply bind_ok in H as (m0 & E2 & H).
    apply Ok_inj in H. subst mask. split; [split; [discriminate|intros [X|X]; discriminate]|].
    intros m gc cat' X Y W Sy. injection X as <-. injection Y as <-. injection W as <-.
    destruct (mask_spec inside _ _ (x_pow10 ext) (x_to_f4 ext) _ _ (gc_max_g_mag gc0) (gc_poly_coeffs gc0)
      (ob_orig_start_row ob) (ob_orig_start_col ob) (ob_box_size ob) _ Hd E1) as (m1 & E3 & P).
    rewrite Sy, E3 in E2. apply Ok_inj in E2. subst m1. exact P.
  - apply Ok_inj in H. subst mask. split; [split; auto|]. discriminate.
  - apply Ok_inj in H. subst mask. split; [split; auto|]. discriminate.
Qed.

(** C72, exact arithmetic: the work on a slice succeeds when no part of it has
    trouble. *)
Theorem C72_slice_succeeds :
  forall (RNG : Type) (ext : @externals R RNG) sc coadding_weight ti objs n_extra seeds i slice_seed ob mask shape,
  well_behaved ext coadding_weight seeds (ob_box_size ob) ->
  no_trouble ext sc n_extra seeds (ob_box_size ob) shape ->
  coadding_weight = "noise"%string \/ coadding_weight = "noise-fwhm"%string ->
  (sc_max_masked_fraction sc <= 1)%R ->
  0 <= i -> nth_error objs (Z.to_nat i) = Some ob -> Z.odd (ob_psf_box_size ob) = true ->
  star_mask ext sc ti ob = Ok mask -> ti_image_shape ti = Some shape ->
  exists r, coadd_single_slice ext sc coadding_weight ti objs n_extra seeds (i, slice_seed) = Ok r.
Proof.
  intros RNG ext sc cw ti objs nx seeds i sd ob mask shape Hwb Hnt Hcw Hmf Hi Eo Hodd Em Esh.
  unfold coadd_single_slice. rewrite (pynth_get _ _ _ Hi Eo). cbn [bind].
  destruct (nt_sky2image _ _ _ _ _ _ Hnt (ob_ra ob) (ob_dec ob)) as [[col row] ->]. cbn [bind].
  unfold build_coadd_psf_layout. cbn [ffloor ROps ftrunc feqb]. cbv zeta.
  assert (Hh : (fdiv (fofZ (ob_psf_box_size ob - 1)) (fofZ 2) = IZR (ob_psf_box_size ob / 2))%R).
  { cbn [fdiv fofZ ROps]. rewrite (Z.div_mod (ob_psf_box_size ob) 2) at 1 by lia.
    rewrite Zodd_mod in Hodd. apply Zeq_bool_eq in Hodd. rewrite Hodd.
    replace (2 * (ob_psf_box_size ob / 2) + 1 - 1) with (2 * (ob_psf_box_size ob / 2)) by lia.
    rewrite mult_IZR. field. }
  rewrite Hh, Ztrunc_IZR. cbn [fofZ ROps]. 
  assert (He : Reqb (IZR (ob_psf_box_size ob / 2)) (IZR (ob_psf_box_size ob / 2)) = true).
  { unfold Reqb. destruct (Req_EM_T _ _); [reflexivity|congruence]. }
  rewrite He. cbn [negb bind].
  match goal with |- context [x_image2sky ext ?a ?b] =>
    destruct (nt_image2sky _ _ _ _ _ _ Hnt a b) as [[ra de] ->] end.
  cbn [bind]. rewrite Em. cbn [bind].
  match goal with |- context [build_slice_inputs ?a ?b ?c ?d ?e ?f ?g ?h ?mm ?l ?r] =>
    assert (Eb : exists out rng', build_slice_inputs a b c d e f g h mm l r = Ok (out, rng'));
    [apply build_decides|] end.
  { exact (wb_normal _ _ _ _ Hwb). }
  { exact (nt_interp _ _ _ _ _ _ Hnt). }
  { exact Hcw. }
  { cbn. unfold Rleb. destruct (Rle_dec _ _); [reflexivity|contradiction]. }
  { intros n Hn. cbn. unfold Rleb. destruct (Rle_dec _ _) as [|N]; [reflexivity|]. exfalso. apply N.
    assert (0 < IZR n)%R by (apply IZR_lt; exact Hn). unfold Rdiv. rewrite Rinv_r by lra. exact Hmf. }
  { intros src Hin Hc. exact (nt_slices _ _ _ _ _ _ Hnt _ _ _ _ src Hin Hc). }
  { intros f s nr nc Ef. destruct mask as [m|]; [|discriminate]. injection Ef as <-. intros Hs Hc.
    apply (nt_map _ _ _ _ _ _ Hnt m _ _ s nr nc Hs). exists (ob_ra ob), (ob_dec ob), ra, de. exact Hc. }
  destruct Eb as (inputs & rng' & Eb). rewrite Eb. cbn [bind].
  destruct (si_weights inputs) as [|w0 ws] eqn:EW; [eexists; reflexivity|]. rewrite <- EW.
  rewrite Esh. cbn [bind].
  assert (Hsh : forall src s, In src (x_sources ext seeds (ob_ra ob) (ob_dec ob) ra de (ob_box_size ob)) ->
            src_slice src = Ok s -> exists nr nc, shaped nr nc s) by (intros; eapply wb_shapes; eauto).
  assert (Hmg : forall f s g nr nc,
     match mask with
     | Some m => Some (x_map_mask ext m (ob_orig_start_row ob) (ob_orig_start_col ob))
     | None => None
     end = Some f ->
     shaped nr nc s -> cut_out_of (x_sources ext seeds (ob_ra ob) (ob_dec ob) ra de (ob_box_size ob)) s ->
     f s = Ok g -> shape_is nr nc g).
  { intros f s g nr nc Ef. destruct mask as [m|]; [|discriminate]. injection Ef as <-.
    intros Hs Hc Eg. refine (wb_mask _ _ _ _ Hwb m _ _ s g nr nc Hs _ Eg).
    exists (ob_ra ob), (ob_dec ob), ra, de. exact Hc. }
  destruct (weights_normalised _ _ _ _ _ _ _ _ _ _ _ _ _ (wb_normal _ _ _ _ Hwb) Hsh Hmg Eb)
    as (_ & _ & _ & _ & Lw & _).
  { intros Ecw u Hu. apply (wb_fwhm _ _ _ _ Hwb). exact Ecw. }
  match goal with |- context [coadd_slice_inputs ?res ?bx ?pbx ?sl ?ws ?k] =>
    destruct (coadd_ok res bx pbx sl ws k) as ([[co w] ds] & ->) end.
  - congruence.
  - intros X. rewrite X, EW in Lw. discriminate.
  - intros u Hu. apply (nt_resample _ _ _ _ _ _ Hnt).
    destruct (build_used _ _ _ _ _ _ _ (wb_normal _ _ _ _ Hwb) _ _ _ _ _ _ Hsh Hmg Eb u Hu)
      as (src & s & U1 & U2 & _ & U4 & U5 & _).
    exists (ob_ra ob), (ob_dec ob), ra, de, src, s. auto.
  - cbn [bind]. eexists. reflexivity.
Qed.

(** C72, any arithmetic: without the shape of the coadd nothing can be coadded. *)
Theorem C72_shape_needed :
  forall (F : Type) (FO : FloatOps F) (RNG : Type) (ext : @externals F RNG) sc coadding_weight ti objs
    n_extra seeds i slice_seed r,
  0 <= i -> ti_image_shape ti = None ->
  coadd_single_slice ext sc coadding_weight ti objs n_extra seeds (i, slice_seed) = Ok r ->
  r_weights _ _ r = [].
Proof.
  intros F FO RNG ext sc cw ti objs nx seeds i sd r Hi Es H.
  destruct (slice_inv ext sc cw ti objs nx seeds i sd r Hi H)
    as (ob & kcol & krow & ra & de & mask & inputs & _ & _ & _ & _ & _ & _ & _ & Rw & _ & Hd).
  rewrite Rw. destruct (si_weights inputs) as [|w ws]; [reflexivity|].
  destruct (Hd ltac:(discriminate)) as (shape & _ & _ & _ & X & _). congruence.
Qed.

(** Concrete: a coadd of 10 x 10 pixels in four slices of 6 x 6, and three
    images: of value 1 and weight 2, of value 5 and weight 6, and one with image
    flags. *)
Section Concrete.
Context {F : Type} {FO : FloatOps F}.

Definition ex_slice (id v w : Z) : @se_slice F :=
  mkslice id 10 20 6 (full 6 6 (fofZ v)) (full 6 6 (fofZ w)) (full 6 6 0)
    [mkimg 6 6 (fun r _ => fofZ (r mod 2))] (full 5 5 (fofZ v)) 100 200 5.

Definition ex_ext : @externals F nat :=
  mkext (fun x y => Ok (x, y)) (fun x y => Ok (x, y)) (fun z => Z.to_nat z)
    (fun _ _ _ _ _ _ =>
       [ mksource 0 true true (Ok (ex_slice 11 1 2)) false;
         mksource 0 true true (Ok (ex_slice 12 5 6)) false;
         mksource 1 true true (Ok (ex_slice 13 9 6)) false ])
    (fun _ _ _ s => Ok (imap (fun _ => false) (sl_bmask s)))
    (fun _ _ _ _ _ _ _ u =>
       let s := u_slice u in
       let n := mkimg 6 6 (fun r _ => fofZ (r mod 2)) in
       Ok (mkres (sl_image s) [n] (u_interp_frac u) (sl_psf s) (sl_bmask s) (u_pmask u)))
    (fun _ a => a) (fun r n _ => (repeat fone n, r)) (fun r _ _ => (fun _ _ => fone, r))
    (fun _ _ => Ok (fun _ => fone)) (fun _ => fone) (fun _ => fone)
    (fun _ _ _ => (fun _ _ => fone, fun _ _ => fone)) (fun x => x) (fun x => x)
    (fun _ n _ => Ok (full n n 0)).

Definition ex_config : @se_config F :=
  mkseconfig None false SymOff false [1] [2; 8] [4] (fdiv fone (fofZ 2)).
Definition ex_tile : @tile_info F := mktile None (Some (10, 10)) 1.

Definition ex_objects : result (list (@object F)) :=
  build_object_data (fun x y => Ok (x, y)) (fun x y => Ok (x, y, y, x)) 4 1 10 5 1.
End Concrete.

Lemma ex_well_behaved : forall seeds box shape,
  well_behaved (@ex_ext R ROps) "noise" seeds box /\
  no_trouble (@ex_ext R ROps) (@ex_config R ROps) 0 seeds box shape.
Proof.
  assert (Hs : forall id v w, shaped 6 6 (@ex_slice R ROps id v w)).
  { intros. repeat split; cbn; try lia. repeat constructor. }
  intros seeds box shape. split; constructor.
  - intros. apply repeat_length.
  - intros ra de rp dp src s Hin Es. exists 6, 6. cbn in Hin.
    repeat (destruct Hin as [<-|Hin]; [cbn in Es; injection Es as <-; apply Hs|]). destruct Hin.
  - intros m row col s g nr nc Hsh _ E. cbn in E. injection E as <-.
    destruct Hsh as (_ & _ & _ & _ & (? & ?) & _). split; cbn; assumption.
  - discriminate.
  - intros; eexists; reflexivity.
  - intros; eexists; reflexivity.
  - intros; eexists; reflexivity.
  - intros ra de rp dp src Hin _. cbn in Hin.
    repeat (destruct Hin as [<-|Hin];
      [eexists; exists 6, 6; split; [reflexivity|]; split; [apply Hs|]; repeat split; try lia; left; reflexivity|]).
    destruct Hin.
  - intros m row col s nr nc Hsh _. eexists. split; [reflexivity|].
    destruct Hsh as (_ & _ & _ & _ & (? & ?) & _). split; cbn; assumption.
  - intros. eexists. split; [reflexivity|]. cbn. lia.
Qed.

(** The run with all slices: pixel values 1 * 1/4 + 5 * 3/4 = 4 in every slice,
    weight 1 / (1/4), two epochs. *)
Definition ex_run : result (@out f64 pixel (list epoch_row)) :=
  objs <- ex_objects ;;
  let ss := snd (all_seeds Z (fun s => s) (fun g _ _ => (g, g + 1)) 50 4 3 0) in
  serial _ _ _ (fun it => coadd_single_slice ex_ext ex_config "noise" ex_tile objs 0 ss it)
    (process_one pixel (fun _ v => v) (fun v => match v with PF x => fltb x fzero | PI z => z <? 0 end)
       (list epoch_row) 36 25)
    (init_out pixel (PI 0) (list epoch_row) 4 6 5 0 (fun _ => mk_obj 0 0 fzero fzero 0 0))
    [(0, 50); (1, 51); (2, 52); (3, 53)].

Example C72_example :
  match ex_run with
  | Ok o =>
      match o_fits _ _ o "image_cutouts"%string, o_fits _ _ o "weight_cutouts"%string with
      | Some h, Some w =>
          forallb (fun p => match dat _ h p with PF x => feqb x (fofZ 4) | PI _ => false end) (zrange 0 144) &&
          forallb (fun p => match dat _ w p with PF x => feqb x (fofZ 4) | PI _ => false end) (zrange 0 144)
      | _, _ => false
      end &&
      forallb (fun i => o_nepoch (o_obj _ _ o i) =? 2) [0; 1; 2; 3]
  | Raise _ => false
  end = true.
Proof. vm_compute. reflexivity. Qed.

(** Doubles: the hypotheses hold, and the images used in this run are ordinary. *)
Example C72_example_double :
  (forall seeds box, right_shapes (@ex_ext f64 F64Ops) seeds box) /\
  exists objs ob inputs,
    @ex_objects f64 F64Ops = Ok objs /\ nth_error objs 0 = Some ob /\
    selected ex_ext ex_config "noise" None [] 50 ob fzero fzero inputs /\
    length (si_slices inputs) = 2%nat /\
    ordinary_inputs (x_measure_fwhm ex_ext) "noise" (si_slices inputs).
Proof.
  split.
  - assert (Hs : forall id v w, shaped 6 6 (@ex_slice f64 F64Ops id v w)).
    { intros. repeat split; cbn; try lia. repeat constructor. }
    intros seeds box. constructor.
    + intros. apply repeat_length.
    + intros ra de rp dp src s Hin Es. exists 6, 6. cbn [ex_ext x_sources] in Hin.
      repeat (destruct Hin as [<-|Hin]; [cbn [src_slice] in Es; injection Es as <-; apply Hs|]). destruct Hin.
    + intros m row col s g nr nc Hsh _ E. cbn in E. injection E as <-.
      destruct Hsh as (_ & _ & _ & _ & (? & ?) & _). split; cbn; assumption.
  - assert (Hx : match @ex_objects f64 F64Ops with
       | Ok (ob :: _) =>
           match build_slice_inputs (x_rotate ex_ext) (x_normal ex_ext) (x_normal2 ex_ext) (x_interpolator ex_ext)
             (x_median ex_ext) (x_measure_fwhm ex_ext) (x_outliers ex_ext)
             (mkconfig (sc_reject_outliers ex_config) (sc_symmetrize_masking ex_config) "noise"
               (sc_copy_masked_edges ex_config) (flag_sum (sc_noise_interp_flags ex_config))
               (flag_sum (sc_spline_interp_flags ex_config)) (flag_sum (sc_bad_image_flags ex_config))
               (sc_max_masked_fraction ex_config)) None
             (x_sources ex_ext [] (ob_ra ob) (ob_dec ob) fzero fzero (ob_box_size ob))
             (x_random_state ex_ext 50) with
           | Ok (out, _) => (length (si_slices out) =? 2)%nat && forallb (fun u =>
               forallb two_or_six (ravel (sl_weight (u_slice u)))) (si_slices out)
           | Raise _ => false
           end
       | _ => false
       end = true) by (vm_compute; reflexivity).
    destruct (@ex_objects f64 F64Ops) as [[|ob objs]|] eqn:Eo; [discriminate| |discriminate].
    destruct (build_slice_inputs _ _ _ _ _ _ _ _ _ _ _) as [[inputs rng']|] eqn:E; [|discriminate].
    apply andb_true_iff in Hx as [Hl Hx]. apply Nat.eqb_eq in Hl. rewrite forallb_forall in Hx.
    exists (ob :: objs), ob, inputs. split; [reflexivity|]. split; [reflexivity|].
    split; [exists rng'; exact E|]. split; [exact Hl|].
    split; [|split; [discriminate|rewrite Hl; cbn; lia]].
    intros u Hu. apply two_or_six_map. apply Hx, Hu.
Qed.

Print Assumptions C72_results_are_labelled.
Print Assumptions C72_file_contents.
Print Assumptions C72_file_is_weighted_mean.
Print Assumptions C72_file_is_weighted_mean_double.
Print Assumptions C72_star_mask.
Print Assumptions C72_slice_succeeds.
Print Assumptions C72_shape_needed.
