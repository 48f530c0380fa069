(** C82 in double arithmetic: a slice from the pixels of the single-epoch images to
    the file. *)
From Coq Require Import ZArith List Bool String Lia Reals Lra SpecFloat.
From Flocq Require Import Core.
From Coq Require Import List.
From Verif Require Import Lib.Base Lib.PyStr Lib.Floats Model.Locate Model.SliceRange Model.Jobs Model.Affine Model.Gaia Model.ObjectData
  Model.Lanczos Model.WcsGrid Model.SeImage Model.SeWcs Model.PsfImage Model.Resample Model.SliceInputs Model.Coadd Model.Writer Model.Sched
  Model.SingleSlice Model.Epoch Model.Whole
  Spec.FloatSpec Spec.FlagSpec Spec.LanczosSpec Spec.LocateSpec Spec.ObjectDataSpec Spec.CoaddSpec Spec.WriterSpec Spec.RunSpec Spec.PsfSpec Spec.ResampleF64Spec
  Spec.SliceInputsSpec Spec.SingleSliceSpec Spec.EpochSpec Spec.EpochF64Spec Spec.WholeSpec Spec.WholeF64Spec
  Proofs.BaseFacts Proofs.F64Facts Proofs.SliceInputsProofs Proofs.WeightProofs Proofs.UsedProofs Proofs.PsfF64
  Proofs.EpochProofs Proofs.SingleSliceProofs Proofs.LanczosF64 Proofs.WholeProofs Proofs.WholeF64
  Props.PropRun Props.PropObjectData Props.PropSliceInputs Props.PropSingleSlice Props.PropWhole.
Import ListNotations.
Open Scope list_scope.
Open Scope Z_scope.

(** C54, double arithmetic: the resampled PSF is the kernel sum of its surface brightness
    around the mapped positions, up to rounding, divided by its sum. *)
Theorem C54_resampled_psf_kernel_double :
  forall (to_se : Z -> Z -> f64 * f64) (area_se area_coadd : Z -> Z -> f64) (st : se_state) (pf : psf_data)
    (px0 py0 n : Z) (out : img f64),
  st_psf st = Some pf -> 1 <= pf_box_size pf ->
  resample_psf to_se area_se area_coadd st px0 py0 n fzero fzero = Ok out ->
  exists raw, resampled_double to_se area_se area_coadd sinc_pade (pf_psf pf) raw py0 px0
      (pf_y_start pf) (pf_x_start pf) n (pf_box_size pf) /\ divided_by_sum raw out.
Proof. exact psf_from_double. Qed.

(** C82, double arithmetic: the pixels of an image in the star mask of the coadd do not
    count when its masked fraction is taken: of the others, less than the allowed fraction
    is masked, and less than the allowed fraction is marked, in every image that is
    used. *)
Theorem C82_stars_are_not_counted_double :
  forall (P RNG : Type) (t : tile f64 P) (libs : @externals f64 RNG) sc coadding_weight seeds slice_seed ob
    ra_psf dec_psf stars inputs y0 x0 frac,
  f64_is (op_frac_buffer (t_options t)) frac ->
  (1 <= frac * IZR (ob_box_size ob) <= bpow radix2 30)%R -> Z.abs (ob_box_size ob) <= 2 ^ 30 ->
  NoDup (map e_image_id (t_entries t)) -> 0 < t_se_delta t ->
  (forall e, given_seeds t seeds e -> e_image_flags e = 0 ->
     files_agree (t_world t) (t_options t) e) ->
  (forall e, given_seeds t seeds e -> e_image_flags e = 0 ->
     ordinary_image (t_world t) (t_options t) (ob_ra ob) (ob_dec ob) ra_psf dec_psf e) ->
  (forall r n x, length (fst (x_normal libs r n x)) = n) ->
  f64_is (ob_orig_start_row ob) (IZR y0) -> f64_is (ob_orig_start_col ob) (IZR x0) ->
  Z.abs y0 <= 2 ^ 30 -> Z.abs x0 <= 2 ^ 30 ->
  selected (tile_externals t libs) sc coadding_weight (Some stars) seeds slice_seed ob ra_psf dec_psf inputs ->
  forall u, In u (si_slices inputs) ->
  exists e W m shape s in_star,
    given_seeds t seeds e /\ image_of (t_world t) (t_options t) e W m shape /\
    kept_from_double (t_world t) (t_options t) frac (ob_ra ob) (ob_dec ob) ra_psf dec_psf (ob_box_size ob)
      e W m shape s false /\
    sl_image_id (u_slice u) = sl_image_id s /\
    mask_on_image_double t e W shape y0 x0 (sl_y_start s) (sl_x_start s) (sl_box_size s) stars in_star /\
    let w := sl_weight (u_slice u) in
    let b := sl_bmask (u_slice u) in
    ~ fraction_at_least (nrows w) (ncols w) (Some in_star)
        (unusable w b (Z.lor (flag_sum (sc_spline_interp_flags sc)) (flag_sum (sc_noise_interp_flags sc))))
        (sc_max_masked_fraction sc) /\
    ~ fraction_at_least (nrows w) (ncols w) (Some in_star) (fun r c => px (u_pmask u) r c <> 0)
        (sc_max_masked_fraction sc).
Proof.
  intros P RNG t libs sc cw seeds sd ob rp dp stars inputs y0 x0 frac Hfrac [Hb1 Hb2] Hb3 Hids Hd Hfa Hord Hn Ey Ex By Bx (rng' & Hsel) u Hu.
  assert (Hfa' : forall e, In e (seeded (t_entries t) seeds) -> e_image_flags e = 0 ->
            files_agree (t_world t) (t_options t) e)
    by (intros e Hin; apply Hfa; exact (proj1 (seeded_given _ _ _) Hin)).
  assert (Hord' : forall e, In e (seeded (t_entries t) seeds) -> e_image_flags e = 0 ->
            ordinary_image (t_world t) (t_options t) (ob_ra ob) (ob_dec ob) rp dp e)
    by (intros e Hin; apply Hord; exact (proj1 (seeded_given _ _ _) Hin)).
  assert (Bf : (Rabs (frac * IZR (ob_box_size ob)) <= bpow radix2 30)%R) by (rewrite Rabs_pos_eq; lra).
  pose proof (tile_right_shapes t libs frac (ob_box_size ob) Hfrac Hb1 Bf Hb3 seeds Hfa' Hn) as Hsp.
  pose proof Hsel as Hsel'. apply C37_used_images_acceptable with (u := u) in Hsel'; try assumption.
  - destruct Hsel' as (src & s0 & s1 & g & Hin & _ & _ & _ & Hpf & Hs0 & Eu & Eid & Esx & Esy & Esb & Hg & H1 & H2 & H3 & H4).
    destruct Hg as (g' & Hg & ->). cbn [option_map] in Hg.
    destruct (source_kept_double t libs frac (ob_box_size ob) Hfrac Hb1 Bf Hb3 seeds _ _ _ _ src s0 Hfa' Hord' Hin Hs0)
      as (e & W & m & sh & Hine & _ & Him & K).
    rewrite Hpf in K. exists e, W, m, sh, s0, g'.
    split; [exact (proj1 (seeded_given _ _ _) Hine)|]. split; [exact Him|]. split; [exact K|]. split; [exact Eu|].
    split; [|split; [exact H3|exact H4]]. cbn [tile_externals x_map_mask] in Hg.
    eapply (map_mask_double t seeds e W m sh frac) in Hg; try eassumption.
    rewrite Esx, Esy, Esb in Hg. exact Hg.
  - intros src s Hin Hs. exact (rs_slices _ _ _ Hsp _ _ _ _ src s Hin Hs).
  - intros f s g nr nc Ef Hs Hc Eg. cbn [option_map] in Ef. injection Ef as <-.
    refine (rs_mask _ _ _ Hsp stars _ _ s g nr nc Hs _ Eg).
    exists (ob_ra ob), (ob_dec ob), rp, dp. exact Hc.
Qed.

(** C82, double arithmetic: what a completed run leaves in the file at the place of each
    slice that was asked for. [us] are the images that are used, [datas] what they look
    like on the stamp, [ps] their weights. *)
Theorem C82_file_from_the_pixels_double :
  forall (P RNG : Type) (t : tile f64 P) (libs : @externals f64 RNG) sc coadding_weight ti
    jac central buffer width psf_box objs n_extra frac,
  0 <= n_extra -> 0 < central <= 2 ^ 50 -> 0 <= buffer <= 2 ^ 50 -> 0 <= width <= 2 ^ 50 ->
  0 < psf_box <= 2 ^ 30 -> Z.odd psf_box = true ->
  ti_position_offset ti = t_offset t -> Z.abs (t_offset t) <= 2 ^ 20 ->
  (forall shape, ti_image_shape ti = Some shape -> 0 <= fst shape /\ 0 <= snd shape) ->
  build_object_data (cw_image2sky (t_coadd t)) jac central buffer width psf_box (t_offset t) = Ok objs ->
  forall zero cast isneg nsrc seed obj0 rng init randint arg h l o,
  let box := central + 2 * buffer in
  let num := Z.of_nat (length objs) in
  let seeds := snd (all_seeds rng init randint seed num nsrc n_extra) in
  (* the tile *)
  box <= 2 ^ 30 -> f64_is (op_frac_buffer (t_options t)) frac ->
  (1 <= frac * IZR box <= bpow radix2 30)%R ->
  NoDup (map e_image_id (t_entries t)) -> 0 < t_se_delta t -> 0 < t_coadd_delta t ->
  (forall e, given_seeds t seeds e -> e_image_flags e = 0 ->
     files_agree (t_world t) (t_options t) e) ->
  (* the libraries *)
  (forall r n x, length (fst (x_normal libs r n x)) = n) ->
  forward arg -> valid_how h -> slices_of arg num = Ok l ->
  run_completes pixel (list epoch_row) zero cast isneg box psf_box n_extra num nsrc seed obj0
    rng init randint
    (fun ss it => coadd_single_slice (tile_externals t libs) sc coadding_weight ti objs n_extra ss it)
    arg h o ->
  exists starts : list (Z * Z),
  tiles_exactly central buffer width starts /\ row_major starts /\
  (forall s, In s starts -> stamp_inside central buffer width s) /\
  forall i, In i l ->
  exists y0 x0 ra dec col row kcol krow ra_psf dec_psf (us : list used_slice),
    0 <= i /\ nth_error starts (Z.to_nat i) = Some (y0, x0) /\
    (* the middle of the slice, and the pixel nearest to it *)
    (exists x y, f64_is x (stamp_centre central buffer x0 + IZR (t_offset t)) /\
       f64_is y (stamp_centre central buffer y0 + IZR (t_offset t)) /\
       cw_image2sky (t_coadd t) x y = Ok (ra, dec)) /\
    cw_sky2image (t_coadd t) ra dec = Ok (col, row) /\
    (forall v, f64_is col v -> (Rabs v <= bpow radix2 29)%R -> (Rabs (v - IZR kcol) <= / 2 + bpow radix2 (-20))%R) /\
    (forall v, f64_is row v -> (Rabs v <= bpow radix2 29)%R -> (Rabs (v - IZR krow) <= / 2 + bpow radix2 (-20))%R) /\
    cw_image2sky (t_coadd t) (fofZ kcol) (fofZ krow) = Ok (ra_psf, dec_psf) /\
    (us <> [] -> ordinary_inputs (x_measure_fwhm libs) coadding_weight us ->
     let n := INR (length us) in
     exists shape datas raw ps,
       ti_image_shape ti = Some shape /\
       (* the images that contribute *)
       ((exists vc vr, f64_is col vc /\ f64_is row vr /\
           (Rabs vc <= bpow radix2 29)%R /\ (Rabs vr <= bpow radix2 29)%R) ->
        (forall e, given_seeds t seeds e -> e_image_flags e = 0 ->
           ordinary_image (t_world t) (t_options t) ra dec ra_psf dec_psf e) ->
        Forall2 (contributes_double t sinc_pade frac (sc_reject_outliers sc) seeds ra dec ra_psf dec_psf shape
           y0 x0 box (krow - t_offset t - psf_box / 2) (kcol - t_offset t - psf_box / 2) psf_box) us datas) /\
       (* their weights *)
       Forall2 (raw_weight_double (x_measure_fwhm libs) coadding_weight) us raw /\
       Forall2 (fun p x => 0 < p <= 1 /\ 0 < x /\
         Rabs (p - x / total raw) <= (n + 9) * bpow radix2 (-52) * (x / total raw))%R ps raw /\
       (Rabs (total ps - 1) <= (n + 1) * bpow radix2 (-52))%R /\
       (* the file *)
       holds_mean o "image_cutouts" i box (cast "image_cutouts"%string) ps
         (fun y x => map (fun d => px (rs_image d) y x) datas) /\
       holds_mean o "mfrac_cutouts" i box (cast "mfrac_cutouts"%string) ps
         (fun y x => map (fun d => unit_fraction (px (rs_interp_frac d) y x)) datas) /\
       holds_mean o "psf" i psf_box (cast "psf"%string) ps
         (fun y x => map (fun d => finite_part (px (rs_psf d) y x)) datas) /\
       (forall k, Z.of_nat k <= n_extra ->
          holds_mean o (noise_name k) i box (cast "noise_cutouts"%string) ps
            (fun y x => map (noise_at k y x) datas)) /\
       (exists noise w,
          holds o (noise_name 0) i box (fun y x => cast "noise_cutouts"%string (PF (noise y x))) /\
          (forall y x, averages ps (map (noise_at 0 y x) datas) (noise y x)) /\
          holds o "weight_cutouts" i box (fun _ _ => cast "weight_cutouts"%string (PF w)) /\
          inverse_spread (map (fun yx => noise (fst yx) (snd yx)) (allpix box box)) w) /\
       holds o "bmask_cutouts" i box (fun y x => cast "bmask_cutouts"%string
         (PI (union_over datas (fun d => px (rs_pmask d) y x)))) /\
       holds o "ormask_cutouts" i box (fun y x => cast "ormask_cutouts"%string
         (PI (union_over datas (fun d => px (rs_bmask d) y x)))) /\
       o_nepoch (o_obj pixel _ o i) = Z.of_nat (length us) /\
       exists v, f64_is (o_nepoch_eff (o_obj pixel _ o i)) v /\
         (1 <= v <= n * (1 + (n + 1) * bpow radix2 (-52)))%R).
Proof.
  intros P RNG t libs sc cw ti jac central buffer width psf_box objs n_extra frac Hx Hc Hbf Hwd Hpb Hodd Hoff Boff Hshp Hb
    zero cast isneg nsrc seed obj0 rng init randint arg h l o box num seeds Bbox Hfrac Hfb Hids Hd1 Hd2 Hfa Hn Hf Vh Hl Hrun.
  assert (Hfa' : forall e, In e (seeded (t_entries t) seeds) -> e_image_flags e = 0 ->
            files_agree (t_world t) (t_options t) e)
    by (intros e Hin; apply Hfa; exact (proj1 (seeded_given _ _ _) Hin)).
  assert (Hfb1 : (1 <= frac * IZR box)%R) by lra.
  assert (Hfb2 : (Rabs (frac * IZR box) <= bpow radix2 30)%R) by (rewrite Rabs_pos_eq; lra).
  assert (Hfb3 : Z.abs box <= 2 ^ 30) by (unfold box in *; lia).
  pose proof (tile_right_shapes t libs frac box Hfrac Hfb1 Hfb2 Hfb3 seeds Hfa' Hn) as Hsp.
  pose proof (C72_file_is_weighted_mean_double RNG (tile_externals t libs) sc cw ti (cw_image2sky (t_coadd t)) jac central buffer width
    psf_box (t_offset t) objs n_extra Hx Hb zero cast isneg nsrc seed obj0 rng init randint arg h l o Hsp Hf Vh Hl Hrun) as HM.
  pose proof (C72_file_contents f64 F64Ops RNG (tile_externals t libs) sc cw ti _ jac central buffer width psf_box (t_offset t)
      objs n_extra Hx Hb zero cast isneg nsrc seed obj0 rng init randint arg h l o Hf Vh Hl Hrun) as HC.
  destruct (C68_object_data_describe_the_slices _ jac central buffer width psf_box (t_offset t) objs Hc Hbf Hwd
              ltac:(lia) ltac:(lia) Hb) as (starts & T1 & T2 & T3 & Ls & Hdesc).
  exists starts. split; [exact T1|]. split; [exact T2|]. split; [exact T3|]. intros i Hi.
  unfold seeds in *. clear seeds.
  destruct (all_seeds rng init randint seed num nsrc n_extra) as [sds seeds] eqn:Eall. fold num in HM, HC. rewrite Eall in HM, HC.
  cbn [snd] in *.
  destruct (HM i Hi) as (ob & kcol & krow & rp & dp & mask & inputs & Eo & (col & row & Es & Fc & Fr) & Ei & Em & Hsel & HF).
  destruct (HC i Hi) as (ob' & _ & _ & _ & _ & _ & _ & Eo' & Oid' & _). rewrite Eo in Eo'. injection Eo' as <-. clear HC HM.
  destruct (nth_error starts (Z.to_nat i)) as [[y0 x0]|] eqn:Est.
  2:{ exfalso. apply nth_error_None in Est.
      assert (Z.to_nat i < length objs)%nat by (apply nth_error_Some; rewrite Eo; discriminate). lia. }
  pose proof (Hdesc _ _ _ Est Eo) as D.
  exists y0, x0, (ob_ra ob), (ob_dec ob), col, row, kcol, krow, rp, dp, (si_slices inputs).
  split. { pose proof (d_id _ _ _ _ _ _ _ _ _ D). lia. }
  split; [reflexivity|].
  split. { destruct (d_sky _ _ _ _ _ _ _ _ _ D) as (x & y & X1 & X2 & X3 & _). exists x, y. auto. }
  split; [exact Es|].
  assert (Near : forall (v : f64) k x, ffloor (fadd v (fhalf : f64)) = Some k -> f64_is v x -> (Rabs x <= bpow radix2 29)%R ->
            (Rabs (x - IZR k) <= / 2 + bpow radix2 (-20))%R).
  { intros v k x Ek Hv Bv. destruct (floor_half_f64 v x Hv) as (k' & Ek' & _ & N).
    - eapply Rle_trans; [exact Bv|]. apply bpow_le. lia.
    - rewrite Ek in Ek'. injection Ek' as <-. exact N. }
  split; [intros v; exact (Near col kcol v Fc)|]. split; [intros v; exact (Near row krow v Fr)|].
  split; [exact Ei|]. intros NS Ho.
  destruct (HF NS Ho) as (shape & datas & raw & ps & Esh & FD & W1 & W2 & _ & _ & W4 & M).
  exists shape, datas, raw, ps. split; [exact Esh|].
  split; [|split; [exact W1|split; [exact W2|split; [exact W4|exact M]]]].
  intros (vc & vr & Hvc & Hvr & Bvc & Bvr) Hord.
  assert (Hord' : forall e, In e (seeded (t_entries t) seeds) -> e_image_flags e = 0 ->
            ordinary_image (t_world t) (t_options t) (ob_ra ob) (ob_dec ob) rp dp e)
    by (intros e Hin; apply Hord; exact (proj1 (seeded_given _ _ _) Hin)).
  assert (Small : forall k v, (Rabs v <= bpow radix2 29)%R -> (Rabs (v - IZR k) <= / 2 + bpow radix2 (-20))%R -> Z.abs k <= 2 ^ 30).
  { intros k v Bv Nv. apply le_IZR. rewrite abs_IZR. change (bpow radix2 29) with 536870912%R in Bv.
    assert (bpow radix2 (-20) <= 1)%R by (apply (bpow_le radix2 (-20) 0); lia).
    replace (IZR k) with (v - (v - IZR k))%R by ring. eapply Rle_trans; [apply Rabs_triang|]. rewrite Rabs_Ropp.
    change (IZR (2 ^ 30)) with 1073741824%R. lra. }
  pose proof (Small _ _ Bvc (Near _ _ _ Fc Hvc Bvc)) as Kc. pose proof (Small _ _ Bvr (Near _ _ _ Fr Hvr Bvr)) as Kr.
  pose proof (d_box _ _ _ _ _ _ _ _ _ D) as Obox. pose proof (d_psf_box _ _ _ _ _ _ _ _ _ D) as Opsf. fold box in Obox.
  destruct Hsel as (rng' & Hsel). rewrite Obox in Hsel.
  assert (U : forall u, In u (si_slices inputs) -> exists src s,
            In src (x_sources (tile_externals t libs) seeds (ob_ra ob) (ob_dec ob) rp dp box) /\ candidate src = true /\
            src_psf_flag src = false /\ src_slice src = Ok s /\ made_from s u /\
            (sc_reject_outliers sc = false -> unmarked_kept s u)).
  { intros u Hu.
    assert (Hsh : forall src s, In src (x_sources (tile_externals t libs) seeds (ob_ra ob) (ob_dec ob) rp dp box) ->
              src_slice src = Ok s -> exists nr nc, SliceInputsSpec.shaped nr nc s)
      by (intros; eapply (rs_slices _ _ _ Hsp); eauto).
    assert (Hmg : forall f s g nr nc,
       option_map (fun m => x_map_mask (tile_externals t libs) m (ob_orig_start_row ob) (ob_orig_start_col ob)) mask = Some f ->
       SliceInputsSpec.shaped nr nc s ->
       cut_out_of (x_sources (tile_externals t libs) seeds (ob_ra ob) (ob_dec ob) rp dp box) s ->
       f s = Ok g -> shape_is nr nc g).
    { intros f s g nr nc Ef. destruct mask as [m|]; [|discriminate Ef]. cbn [option_map] in Ef. injection Ef as <-.
      intros Hs Hcut Eg. refine (rs_mask _ _ _ Hsp m _ _ s g nr nc Hs _ Eg).
      exists (ob_ra ob), (ob_dec ob), rp, dp. exact Hcut. }
    destruct (build_used _ _ _ _ _ _ _ (rs_normal _ _ _ Hsp) _ _ _ _ _ _ Hsh Hmg
      Hsel u Hu) as (src & s & U1 & U2 & U3 & U4 & U5 & U6).
    exists src, s. repeat (split; [assumption|]). intros Hr. apply U6; [exact f64_eqb_sym|exact f64_eqb_trans|exact Hr]. }
  assert (Hh : forall k, Z.abs k <= 2 ^ 30 -> f64_is (fsub (fofZ (k - t_offset t)) (fdiv (fofZ (psf_box - 1)) (fofZ 2)) : f64)
            (IZR (k - t_offset t - psf_box / 2))).
  { intros k Bk. pose proof (stamp_start (k - t_offset t) psf_box ltac:(lia) Hpb) as S.
    replace (IZR (k - t_offset t - psf_box / 2)) with (IZR (2 * (k - t_offset t) - (psf_box - 1)) / 2)%R; [exact S|].
    rewrite (Z.div_mod psf_box 2) at 1 by lia.
    rewrite Zodd_mod in Hodd. apply Zeq_bool_eq in Hodd. rewrite Hodd.
    replace (2 * (k - t_offset t) - (2 * (psf_box / 2) + 1 - 1)) with (2 * (k - t_offset t - psf_box / 2)) by lia.
    rewrite mult_IZR. field. }
  clear HF M W1 W2 W4 Hsel Ho NS. revert FD U. generalize (si_slices inputs) as us. intros us FD U.
  induction FD as [|u d us datas Hr FD IH]; constructor; [|apply IH; intros u' Hu'; apply U; now right].
  destruct (U u (or_introl eq_refl)) as (src & s & U1 & U2 & U3 & U4 & U5 & U6).
  destruct (source_kept_double t libs frac box Hfrac Hfb1 Hfb2 Hfb3 seeds _ _ _ _ src s Hfa' Hord' U1 U4)
    as (e & W & m & sh & Hine & Hflag & Him & K).
  pose proof (source_shaped t libs frac box Hfrac Hfb1 Hfb2 Hfb3 seeds _ _ _ _ src s Hfa' U1 U4) as Hsh.
  rewrite U3 in K. exists e, W, m, sh, s.
  split; [exact (proj1 (seeded_given _ _ _) Hine)|]. split; [exact Him|]. split; [exact K|]. split; [exact U5|]. split; [exact U6|].
  unfold resampled_to in Hr. cbv zeta in Hr. cbn [tile_externals x_resample] in Hr.
  destruct (Hshp shape Esh) as (S1 & S2). rewrite Obox, Opsf, Hoff in Hr.
  exact (resample_used_double t seeds e W m sh frac (ob_ra ob) (ob_dec ob) rp dp box s false u _ _ _ _ y0 x0 _ _ box psf_box shape d
    Hfb1 Hids Hd1 Hd2 S1 S2 Hine Him (Hord' e Hine Hflag) K Hsh U5
    (d_start_row _ _ _ _ _ _ _ _ _ D) (d_start_col _ _ _ _ _ _ _ _ _ D) (Hh krow Kr) (Hh kcol Kc) Hr).
Qed.

(** ** Concrete case: the tile of [C82_example]. Its entries meet the hypotheses; for the
    slice in row 1 and column 1 two images are used, and their numbers are ordinary. *)
Definition one_or_three (x : f64) : bool :=
  match x with
  | S754_finite false m e => Pos.eqb m 4503599627370496 && (e =? -52) || Pos.eqb m 6755399441055744 && (e =? -51)
  | _ => false
  end.

Lemma one_or_three_map (w : img f64) : forallb one_or_three (ravel w) = true -> ordinary_weight_map w.
Proof.
  intros H r c Hin.
  assert (Hp : one_or_three (px w r c) = true).
  { rewrite forallb_forall in H. apply H. unfold ravel. apply in_map_iff.
    exists (r, c). split; [reflexivity|]. now apply In_allpix. }
  assert (B : (bpow radix2 (-150) <= 1)%R) by (apply (bpow_le radix2 (-150) 0); lia).
  assert (B' : (4 <= bpow radix2 150)%R) by (apply (bpow_le radix2 2 150); lia).
  destruct (px w r c) as [s|s| |[|] m e]; try discriminate Hp. cbn [one_or_three] in Hp.
  rewrite orb_true_iff, !andb_true_iff, !Pos.eqb_eq, !Z.eqb_eq in Hp. destruct Hp as [[-> ->]|[-> ->]].
  - exists 1%R. split; [apply (f64_ofZ_is 1); cbn; lia|]. right. lra.
  - exists 3%R. split; [apply (f64_ofZ_is 3); cbn; lia|]. right. lra.
Qed.

Lemma exw_seeds : ex_seeds = [([54], 55); ([56], 57); ([58], 59)].
Proof. reflexivity. Qed.

Lemma exw_files e : given_seeds (@ex_whole f64 F64Ops) ex_seeds e -> e_image_flags e = 0 ->
  files_agree (t_world ex_whole) (t_options ex_whole) e.
Proof.
  intros Hg He W m shape pixels bmask (_ & _ & Hs) Hp Hm.
  apply seeded_given in Hg. rewrite exw_seeds in Hg. cbn [seeded t_entries ex_whole] in Hg.
  destruct Hg as [<-|[<-|[<-|[]]]]; cbn [e_image_flags ex_unreadable] in He; try discriminate He;
    cbn in Hp, Hm; apply Ok_inj in Hp, Hm; subst pixels bmask; inversion Hs; subst; cbn in *;
    try discriminate; match goal with H : Some _ = Some shape |- _ => injection H as <- end; repeat split.
Qed.

Lemma exw_ordinary e : given_seeds (@ex_whole f64 F64Ops) ex_seeds e -> e_image_flags e = 0 ->
  ordinary_image (t_world ex_whole) (t_options ex_whole) (fofZ 2) (fofZ 2) (fofZ 2) (fofZ 2) e.
Proof.
  intros Hg He.
  assert (Hi : e_offset e = 1 /\ e_info e = ex_source).
  { apply seeded_given in Hg. rewrite exw_seeds in Hg. cbn [seeded t_entries ex_whole] in Hg.
    destruct Hg as [<-|[<-|[<-|[]]]]; cbn [e_image_flags ex_unreadable] in He; try discriminate He; split; reflexivity. }
  destruct Hi as [Ho Hi]. split; [rewrite Ho; lia|]. intros W m shape (Hw & _ & _).
  assert (EW : W = AffineW ex_affine).
  { eapply choose_wcs_det; [exact Hw|]. rewrite Hi. constructor; reflexivity. }
  assert (O : ordinary_position (t_options ex_whole) e W (fofZ 2) (fofZ 2)).
  { subst W. intros a b H.
    assert (E : a = fofZ 6 /\ b = fofZ 6).
    { vm_compute in H. apply Ok_inj, pair_equal_spec in H as [<- <-]; split; vm_compute; reflexivity. }
    destruct E as [-> ->]. exists (IZR 6), (IZR 6).
    split; [apply f64_ofZ_is; lia|]. split; [apply f64_ofZ_is; lia|].
    change (bpow radix2 29) with (IZR (2 ^ 29)). rewrite <- !abs_IZR. split; apply IZR_le; lia. }
  split; [exact O|]. split; [exact O|]. intros s q raw H. apply Ok_inj in H. subst raw. cbn. lia.
Qed.

Example C82_example_double :
  f64_is (op_frac_buffer (t_options (@ex_whole f64 F64Ops))) 1%R /\
  NoDup (map e_image_id (t_entries (@ex_whole f64 F64Ops))) /\
  (forall e, given_seeds ex_whole ex_seeds e -> e_image_flags e = 0 ->
     files_agree (t_world ex_whole) (t_options ex_whole) e /\
     ordinary_image (t_world ex_whole) (t_options ex_whole) (fofZ 2) (fofZ 2) (fofZ 2) (fofZ 2) e) /\
  exists objs ob r inputs,
    @ex_whole_objects f64 F64Ops = Ok objs /\ nth_error objs 3 = Some ob /\
    ob_ra ob = fofZ 2 /\ ob_dec ob = fofZ 2 /\ ex_work objs 3 = Ok r /\
    selected (tile_externals ex_whole ex_ext) ex_config "noise" None ex_seeds 50 ob (fofZ 2) (fofZ 2) inputs /\
    length (si_slices inputs) = 2%nat /\
    ordinary_inputs (x_measure_fwhm ex_ext) "noise" (si_slices inputs).
Proof.
  split; [apply (f64_ofZ_is 1); cbn; lia|].
  split; [cbn; repeat constructor; cbn; intuition congruence|].
  split; [intros e Hg He; split; [apply exw_files; assumption|apply exw_ordinary; assumption]|].
  set (ext := tile_externals (@ex_whole f64 F64Ops) ex_ext).
  assert (Hx : match @ex_whole_objects f64 F64Ops with
     | Ok (o0 :: o1 :: o2 :: ob :: _) =>
         match ob_ra ob, ob_dec ob with
         | S754_finite false m e, S754_finite false m' e' =>
           Pos.eqb m 4503599627370496 && (e =? -51) && Pos.eqb m' 4503599627370496 && (e' =? -51)
         | _, _ => false
         end &&
         match ex_work [o0; o1; o2; ob] 3 with Ok _ => true | Raise _ => false end &&
         match build_slice_inputs (x_rotate ext) (x_normal ext) (x_normal2 ext) (x_interpolator ext)
             (x_median ext) (x_measure_fwhm ext) (x_outliers ext)
             (mkconfig (sc_reject_outliers ex_config) (sc_symmetrize_masking ex_config) "noise"
               (sc_copy_masked_edges ex_config) (flag_sum (sc_noise_interp_flags ex_config))
               (flag_sum (sc_spline_interp_flags ex_config)) (flag_sum (sc_bad_image_flags ex_config))
               (sc_max_masked_fraction ex_config)) None
             (x_sources ext ex_seeds (ob_ra ob) (ob_dec ob) (fofZ 2) (fofZ 2) (ob_box_size ob))
             (x_random_state ext 50) with
         | Ok (out, _) => (length (si_slices out) =? 2)%nat && forallb (fun u =>
             forallb one_or_three (ravel (sl_weight (u_slice u)))) (si_slices out)
         | Raise _ => false
         end
     | _ => false
     end = true) by (vm_compute; reflexivity).
  destruct (@ex_whole_objects f64 F64Ops) as [l|] eqn:Eo; [|discriminate].
  assert (El : length l = 4%nat).
  { revert Eo. unfold ex_whole_objects, build_object_data. intros H.
    assert (K : match @ex_whole_objects f64 F64Ops with Ok l => length l | _ => 0%nat end = 4%nat) by (vm_compute; reflexivity).
    unfold ex_whole_objects, build_object_data in K. rewrite H in K. exact K. }
  destruct l as [|o0 [|o1 [|o2 [|ob [|]]]]]; try discriminate El.
  apply andb_true_iff in Hx as [Hx H2]. apply andb_true_iff in Hx as [H0 H1].
  destruct (ex_work _ 3) as [r|] eqn:Er; [|discriminate H1].
  destruct (build_slice_inputs _ _ _ _ _ _ _ _ _ _ _) as [[inputs rng']|] eqn:E; [|discriminate H2].
  apply andb_true_iff in H2 as [Hl H2]. apply Nat.eqb_eq in Hl. rewrite forallb_forall in H2.
  exists [o0; o1; o2; ob], ob, r, inputs. split; [reflexivity|]. split; [reflexivity|].
  assert (Hp : ob_ra ob = fofZ 2 /\ ob_dec ob = fofZ 2).
  { destruct (ob_ra ob) as [| | |[] m e]; try discriminate H0.
    destruct (ob_dec ob) as [| | |[] m' e']; try discriminate H0.
    rewrite !andb_true_iff, !Pos.eqb_eq, !Z.eqb_eq in H0. destruct H0 as [[[-> ->] ->] ->]. split; vm_compute; reflexivity. }
  destruct Hp as [Hp1 Hp2]. split; [exact Hp1|]. split; [exact Hp2|]. split; [exact Er|].
  split; [exists rng'; exact E|]. split; [exact Hl|].
  split; [|split; [discriminate|rewrite Hl; cbn; lia]].
  intros u Hu. apply one_or_three_map. apply H2, Hu.
Qed.

Print Assumptions C54_resampled_psf_kernel_double.
Print Assumptions C82_stars_are_not_counted_double.
Print Assumptions C82_file_from_the_pixels_double.
