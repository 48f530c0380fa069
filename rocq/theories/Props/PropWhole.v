(** C82: a slice from the pixels of the single-epoch images to the file. *)
From Coq Require Import ZArith List Bool String Lia Reals Lra.
From Flocq Require Import Core.
From Coq Require Import List.
From Verif Require Import Lib.Base Lib.PyStr Lib.Floats Model.Locate Model.SliceRange Model.Jobs Model.Affine Model.Gaia Model.ObjectData
  Model.WcsGrid Model.SeWcs Model.SliceInputs Model.Coadd Model.Writer Model.Sched Model.SingleSlice Model.Epoch Model.Whole
  Spec.FlagSpec Spec.CoaddSpec Spec.WriterSpec Spec.RunSpec Spec.SliceInputsSpec Spec.SingleSliceSpec
  Spec.EpochSpec Spec.WholeSpec Proofs.BaseFacts Proofs.SliceInputsProofs Proofs.SingleSliceProofs Proofs.WholeProofs
  Props.PropRun Props.PropSliceInputs Props.PropSingleSlice Props.PropEpoch.
Import ListNotations.
Open Scope list_scope.
Open Scope Z_scope.

(** C82: with images that can be used the work on a slice succeeds, wherever the
    slice is. *)
Theorem C82_slice_succeeds :
  forall (P RNG : Type) (t : tile R P) (libs : @externals R RNG) sc coadding_weight ti objs n_extra
    seeds i slice_seed ob mask shape,
  ready t n_extra seeds (ob_box_size ob) shape ->
  (forall r n x, length (fst (x_normal libs r n x)) = n) ->
  (forall ps vs, exists f, x_interpolator libs ps vs = Ok f) ->
  (forall psf, x_measure_fwhm libs psf <> 0%R) ->
  coadding_weight = "noise"%string \/ coadding_weight = "noise-fwhm"%string ->
  (sc_max_masked_fraction sc <= 1)%R ->
  0 <= i -> nth_error objs (Z.to_nat i) = Some ob -> Z.odd (ob_psf_box_size ob) = true ->
  star_mask (tile_externals t libs) sc ti ob = Ok mask -> ti_image_shape ti = Some shape ->
  exists r, coadd_single_slice (tile_externals t libs) sc coadding_weight ti objs n_extra seeds (i, slice_seed) = Ok r.
Proof.
  intros P RNG t libs sc cw ti objs nx seeds i sd ob mask shape Rd Hn Hint Hf Hcw Hmf Hi Eo Hodd Em Esh.
  eapply C72_slice_succeeds; try eassumption.
  - apply tile_well_behaved; [pose proof (rd_box _ _ _ _ _ Rd); lra| |exact Hn|intros _; exact Hf].
    intros e Hin He. destruct (rd_images _ _ _ _ _ Rd e (proj1 (seeded_given _ _ _) Hin) He) as (_ & W & m & sh & U & _).
    exact (usable_agree _ _ _ _ _ U).
  - apply tile_no_trouble; assumption.
Qed.

(** C82: what a completed run leaves in the file at the place of each slice that was
    asked for. The slice [i] is in row [a] and column [b] of the grid of slices. *)
Theorem C82_file_from_the_pixels :
  forall (P RNG : Type) (t : tile R P) (libs : @externals R RNG) sc coadding_weight ti
    jac central buffer width psf_box objs n_extra,
  0 <= n_extra -> 0 < central -> Z.odd psf_box = true -> ti_position_offset ti = t_offset t ->
  (forall shape, ti_image_shape ti = Some shape -> 0 <= fst shape /\ 0 <= snd shape) ->
  build_object_data (cw_image2sky (t_coadd t)) jac central buffer width psf_box (t_offset t) = Ok objs ->
  forall zero cast isneg nsrc seed obj0 rng init randint arg h l o,
  let box := central + 2 * buffer in
  let num := Z.of_nat (length objs) in
  let seeds := snd (all_seeds rng init randint seed num nsrc n_extra) in
  (* the tile *)
  (1 <= op_frac_buffer (t_options t) * IZR box)%R ->
  NoDup (map e_image_id (t_entries t)) -> 0 < t_se_delta t -> 0 < t_coadd_delta t ->
  (forall e, given_seeds t seeds e -> e_image_flags e = 0 ->
     files_agree (t_world t) (t_options t) e) ->
  (* the libraries *)
  (forall r n x, length (fst (x_normal libs r n x)) = n) ->
  (coadding_weight = "noise-fwhm"%string -> forall psf, x_measure_fwhm libs psf <> 0%R) ->
  forward arg -> valid_how h -> slices_of arg num = Ok l ->
  run_completes pixel (list epoch_row) zero cast isneg box psf_box n_extra num nsrc seed obj0
    rng init randint
    (fun ss it => coadd_single_slice (tile_externals t libs) sc coadding_weight ti objs n_extra ss it)
    arg h o ->
  forall i, In i l ->
  exists n a b ra dec ra_psf dec_psf kcol krow (cs : list contribution),
    width - 2 * buffer = n * central /\ 0 <= a < n /\ 0 <= b < n /\ i = a * n + b /\
    (* the middle of the slice, and of the pixel nearest to it *)
    (let middle k := (IZR (k * central) + (IZR box - 1) / 2 + IZR (t_offset t))%R in
     cw_image2sky (t_coadd t) (middle b) (middle a) = Ok (ra, dec)) /\
    (exists col row, cw_sky2image (t_coadd t) ra dec = Ok (col, row) /\
       (IZR kcol - 1 / 2 <= col < IZR kcol + 1 / 2)%R /\ (IZR krow - 1 / 2 <= row < IZR krow + 1 / 2)%R) /\
    cw_image2sky (t_coadd t) (IZR kcol) (IZR krow) = Ok (ra_psf, dec_psf) /\
    (* the images that contribute *)
    (forall c, In c cs -> (0 < ct_weight c)%R /\
       exists shape, ti_image_shape ti = Some shape /\
         contributes t (sc_reject_outliers sc) seeds ra dec ra_psf dec_psf shape
           (a * central) (b * central) box
           (krow - t_offset t - psf_box / 2) (kcol - t_offset t - psf_box / 2) psf_box c) /\
    (cs <> [] -> total (map ct_weight cs) = 1%R) /\
    o_nepoch (o_obj pixel _ o i) = Z.of_nat (length cs) /\
    (cs = [] -> o_nepoch_eff (o_obj pixel _ o i) = 0%R) /\
    (cs <> [] -> exists m, largest (map ct_weight cs) m /\ o_nepoch_eff (o_obj pixel _ o i) = (1 / m)%R) /\
    (* the file *)
    (cs <> [] ->
       holds o "image_cutouts" i box (fun y x => cast "image_cutouts"%string
         (PF (mean_over cs (fun d => px (rs_image d) y x)))) /\
       holds o "psf" i psf_box (fun y x => cast "psf"%string
         (PF (mean_over cs (fun d => px (rs_psf d) y x)))) /\
       holds o "mfrac_cutouts" i box (fun y x => cast "mfrac_cutouts"%string
         (PF (mean_over cs (fun d => Rmin (Rabs (px (rs_interp_frac d) y x)) 1)))) /\
       (forall k, Z.of_nat k <= n_extra ->
          holds o (noise_name k) i box (fun y x => cast "noise_cutouts"%string
            (PF (mean_over cs (noise_at k y x))))) /\
       holds o "weight_cutouts" i box (fun y x => cast "weight_cutouts"%string
         (PF (1 / spread (map (fun yx => mean_over cs (noise_at 0 (fst yx) (snd yx)))
                            (allpix box box)))%R)) /\
       (forall y x, exists bm m : Z,
          (forall k, Z.testbit bm k = true <->
             exists c, In c cs /\ Z.testbit (px (rs_pmask (ct_data c)) y x) k = true) /\
          (forall k, Z.testbit m k = true <->
             exists c, In c cs /\ Z.testbit (px (rs_bmask (ct_data c)) y x) k = true) /\
          (forall hb, 0 <= y < box -> 0 <= x < box -> o_fits pixel _ o "bmask_cutouts"%string = Some hb ->
             dat pixel hb (i * box ^ 2 + y * box + x) = cast "bmask_cutouts"%string (PI bm)) /\
          (forall ho, 0 <= y < box -> 0 <= x < box -> o_fits pixel _ o "ormask_cutouts"%string = Some ho ->
             dat pixel ho (i * box ^ 2 + y * box + x) = cast "ormask_cutouts"%string (PI m)))).
Proof.
  intros P RNG t libs sc cw ti jac central buffer width psf_box objs n_extra Hx Hc Hodd Hoff Hshp Hb
    zero cast isneg nsrc seed obj0 rng init randint arg h l o box num seeds Hbox Hids Hd1 Hd2 Hfa Hn Hfw Hf Vh Hl Hrun
    i Hi.
  assert (Hfa' : forall e, In e (seeded (t_entries t) seeds) -> e_image_flags e = 0 ->
            files_agree (t_world t) (t_options t) e)
    by (intros e Hin; apply Hfa; exact (proj1 (seeded_given _ _ _) Hin)).
  pose proof (tile_well_behaved t libs cw seeds box Hbox Hfa' Hn Hfw) as Hwb.
  destruct (C72_file_is_weighted_mean RNG (tile_externals t libs) sc cw ti (cw_image2sky (t_coadd t)) jac central buffer width
    psf_box (t_offset t) objs n_extra Hx Hb zero cast isneg nsrc seed obj0 rng init randint arg h l o Hwb Hf Vh Hl Hrun
    i Hi) as (ob & rp & dp & cs & Eo & Hcs & Hw & (kcol & krow & col & row & Hs & N1 & N2 & Hp & Hr) & Nep & Neff & Neff' & HF).
  destruct (slice_place _ _ _ _ _ _ _ _ Hc Hb) as (n & En & Hpl).
  destruct (Hpl _ _ Eo) as (a & b & Ha & Hbb & Ek & Esr & Esc & Esky).
  destruct (build_sizes _ _ _ _ _ _ _ objs Hb _ ob Eo) as (Oid & Obox & Opsf).
  assert (Hi0 : i = a * n + b).
  { rewrite <- Ek. enough (0 <= i) by lia.
    pose proof (C72_file_contents R ROps RNG (tile_externals t libs) sc cw ti _ jac central buffer width psf_box (t_offset t)
      objs n_extra Hx Hb zero cast isneg nsrc seed obj0 rng init randint arg h l o Hf Vh Hl Hrun) as HC.
    destruct (all_seeds rng init randint seed _ nsrc n_extra) as [sds ss].
    destruct (HC i Hi) as (ob' & _ & _ & _ & _ & _ & _ & Eo' & Oid' & _). rewrite Eo in Eo'. injection Eo' as <-. lia. }
  exists n, a, b, (ob_ra ob), (ob_dec ob), rp, dp, kcol, krow, cs.
  split; [exact En|]. split; [exact Ha|]. split; [exact Hbb|]. split; [exact Hi0|]. split; [exact Esky|].
  split; [exists col, row; auto|]. split; [exact Hp|].
  split; [|split; [exact Hw|split; [exact Nep|split; [exact Neff|split; [exact Neff'|exact HF]]]]].
  intros c Hin. destruct (Hcs c Hin) as (Wc & src & s & Hsrc & _ & _ & _ & Hflag & Hslice & Hmf & Hkept).
  split; [exact Wc|]. destruct (Hr c Hin) as (shape & Esh & Hres). exists shape. split; [exact Esh|].
  destruct (source_kept t libs seeds _ _ _ _ box src s Hbox Hfa' Hsrc Hslice) as (e & W & m & sh & Hine & Him & K).
  rewrite Hflag in K. exists e, W, m, sh, s.
  split; [exact (proj1 (seeded_given _ _ _) Hine)|]. split; [exact Him|]. split; [exact K|]. split; [exact Hmf|]. split; [exact Hkept|].
  unfold resampled_to in Hres. cbv zeta in Hres. cbn [tile_externals x_resample] in Hres.
  destruct (Hshp shape Esh) as (S1 & S2).
  apply (resample_used_inv t seeds e W m sh (ob_ra ob) (ob_dec ob) rp dp box s false (ct_slice c)) in Hres; try assumption.
  rewrite Esr, Esc, !Zfloor_IZR, Obox, Opsf, Hoff in Hres.
  assert (Hh : (fdiv (fofZ (psf_box - 1)) (fofZ 2) = IZR (psf_box / 2))%R).
  { cbn [fdiv fofZ ROps]. rewrite (Z.div_mod psf_box 2) at 1 by lia.
    rewrite Zodd_mod in Hodd. apply Zeq_bool_eq in Hodd. rewrite Hodd.
    replace (2 * (psf_box / 2) + 1 - 1) with (2 * (psf_box / 2)) by lia. rewrite mult_IZR. field. }
  rewrite Hh in Hres. cbn [fsub fofZ ROps] in Hres. rewrite <- !minus_IZR, !Zfloor_IZR in Hres. exact Hres.
Qed.

(** C82: the pixels of an image in the star mask of the coadd do not count when its
    masked fraction is taken: of the others, less than the allowed fraction is masked, and
    less than the allowed fraction is marked, in every image that is used. *)
Theorem C82_stars_are_not_counted :
  forall (P RNG : Type) (t : tile R P) (libs : @externals R RNG) sc coadding_weight seeds slice_seed ob
    ra_psf dec_psf stars inputs y0 x0,
  (1 <= op_frac_buffer (t_options t) * IZR (ob_box_size ob))%R ->
  NoDup (map e_image_id (t_entries t)) -> 0 < t_se_delta t ->
  (forall e, given_seeds t seeds e -> e_image_flags e = 0 ->
     files_agree (t_world t) (t_options t) e) ->
  (forall r n x, length (fst (x_normal libs r n x)) = n) ->
  ob_orig_start_row ob = IZR y0 -> ob_orig_start_col ob = IZR x0 ->
  selected (tile_externals t libs) sc coadding_weight (Some stars) seeds slice_seed ob ra_psf dec_psf inputs ->
  forall u, In u (si_slices inputs) ->
  exists e W m shape s in_star,
    given_seeds t seeds e /\ image_of (t_world t) (t_options t) e W m shape /\
    kept_from (t_world t) (t_options t) (ob_ra ob) (ob_dec ob) ra_psf dec_psf (ob_box_size ob) e W m shape s false /\
    sl_image_id (u_slice u) = sl_image_id s /\
    mask_on_image t e W shape y0 x0 (sl_y_start s) (sl_x_start s) (sl_box_size s) stars in_star /\
    let w := sl_weight (u_slice u) in
    let b := sl_bmask (u_slice u) in
    ~ fraction_at_least (nrows w) (ncols w) (Some in_star)
        (unusable w b (Z.lor (flag_sum (sc_spline_interp_flags sc)) (flag_sum (sc_noise_interp_flags sc))))
        (sc_max_masked_fraction sc) /\
    ~ fraction_at_least (nrows w) (ncols w) (Some in_star) (fun r c => px (u_pmask u) r c <> 0)
        (sc_max_masked_fraction sc).
Proof.
  intros P RNG t libs sc cw seeds sd ob rp dp stars inputs y0 x0 Hbox Hids Hd Hfa Hn Ey Ex (rng' & Hsel) u Hu.
  assert (Hfa' : forall e, In e (seeded (t_entries t) seeds) -> e_image_flags e = 0 ->
            files_agree (t_world t) (t_options t) e)
    by (intros e Hin; apply Hfa; exact (proj1 (seeded_given _ _ _) Hin)).
  pose proof (tile_well_behaved t libs "noise" seeds (ob_box_size ob) Hbox Hfa' Hn ltac:(discriminate)) as Hwb.
  pose proof Hsel as Hsel'. apply C37_used_images_acceptable with (u := u) in Hsel'; try assumption.
  - destruct Hsel' as (src & s0 & s1 & g & Hin & _ & _ & _ & Hpf & Hs0 & Eu & Eid & Esx & Esy & Esb & Hg & H1 & H2 & H3 & H4).
    destruct Hg as (g' & Hg & ->). cbn [option_map] in Hg.
    destruct (source_kept t libs seeds _ _ _ _ _ src s0 Hbox Hfa' Hin Hs0) as (e & W & m & sh & Hine & Him & K).
    rewrite Hpf in K. exists e, W, m, sh, s0, g'.
    split; [exact (proj1 (seeded_given _ _ _) Hine)|]. split; [exact Him|]. split; [exact K|]. split; [exact Eu|].
    split; [|split; [exact H3|exact H4]]. cbn [tile_externals x_map_mask] in Hg.
    apply (map_mask_inv t seeds e W m sh (ob_ra ob) (ob_dec ob) rp dp (ob_box_size ob) s0 false) in Hg; try assumption.
    rewrite Esx, Esy, Esb, Ey, Ex, !Zfloor_IZR in Hg. exact Hg.
  - intros src s Hin Hs. exact (wb_shapes _ _ _ _ Hwb _ _ _ _ src s Hin Hs).
  - intros f s g nr nc Ef Hs Hc Eg. cbn [option_map] in Ef. injection Ef as <-.
    refine (wb_mask _ _ _ _ Hwb stars _ _ s g nr nc Hs _ Eg).
    exists (ob_ra ob), (ob_dec ob), rp, dp. exact Hc.
Qed.

(** C82: the PSF image of a slice sums to one if those that contribute do. *)
Theorem C82_psf_sums_to_one :
  forall (cs : list contribution) (n : Z),
  total (map ct_weight cs) = 1%R ->
  (forall c, In c cs -> nrows (rs_psf (ct_data c)) = n /\ ncols (rs_psf (ct_data c)) = n /\
     total (ravel (rs_psf (ct_data c))) = 1%R) ->
  total (map (fun yx => mean_over cs (fun d => px (rs_psf d) (fst yx) (snd yx))) (allpix n n)) = 1%R.
Proof.
  intros cs n Hw Hp.
  assert (L : forall (l : list (Z * Z)), total (map (fun yx => mean_over cs (fun d => px (rs_psf d) (fst yx) (snd yx))) l)
    = fold_right (fun c acc => ct_weight c * total (map (fun yx => px (rs_psf (ct_data c)) (fst yx) (snd yx)) l) + acc)%R 0%R cs).
  { unfold total, mean_over. induction l as [|yx l IH]; cbn [map fold_right].
    - clear. induction cs as [|c cs IH]; cbn [fold_right]; [reflexivity|]. rewrite <- IH. ring.
    - rewrite IH. clear. induction cs as [|c cs IH]; cbn [fold_right]; [ring|]. rewrite <- IH. ring. }
  rewrite L. rewrite <- Hw. clear L Hw. unfold total at 2. induction cs as [|c cs IH]; [reflexivity|].
  cbn [fold_right map]. rewrite IH by (intros; apply Hp; now right).
  destruct (Hp c (or_introl eq_refl)) as (E1 & E2 & E3).
  assert (E : map (fun yx => px (rs_psf (ct_data c)) (fst yx) (snd yx)) (allpix n n) = ravel (rs_psf (ct_data c))).
  { unfold ravel. rewrite E1, E2. apply map_ext. intros []; reflexivity. }
  rewrite E, E3. ring.
Qed.

(** Concrete: a coadd of 4 x 4 pixels in four slices of 3 x 3, and three images of
    17 x 17 pixels. One has the value 2r + c in row r and column c, one the value 3,
    with three times the weight; both are moved by four pixels against the coadd. One
    has image flags and cannot be read. *)
Section Concrete.
Context {F : Type} {FO : FloatOps F}.

Definition ex_affine : affine F := mk_affine fone fzero fzero fone (fofZ 4) (fofZ 4) fone.
Definition ex_source : SeWcs.source (F := F) (P := nat) :=
  SeWcs.mksrc None None None None None None (Some ex_affine) (Some 5%nat) (Some (17, 17)).
Definition ex_image (id : Z) (im : Z -> Z -> F) (weight : Z) : entry F nat :=
  mkentry id 0 1 ex_source (Ok (SeImage.mksrc 7 (fofZ 30) (mkimg 17 17 im) (full 17 17 fone) (full 17 17 (fofZ weight))))
    (Ok (full 17 17 0)) [] 0.
Definition ex_unreadable : entry F nat :=
  mkentry 2 4 1 (SeWcs.mksrc None None None None None None None None None) (Raise IOError) (Raise IOError) [] 0.

Definition ex_tile_world : world F nat :=
  mkworld (fun _ _ => Raise IOError) (fun _ _ _ => Raise IOError) (fun _ _ => Raise IOError)
    (fun _ => Raise IOError) (fun _ _ => Raise IOError) (fun _ _ _ _ => (fzero, fzero)) (fun _ => fone)
    (fun _ => fone) (fun _ k => fofZ (k mod 2)) (fun x => x) (fun _ => PsfImage.Galsim) (fun _ => 1)
    (fun _ _ _ => Ok (mkimg 5 5 (fun r c => if (r =? 2) && (c =? 2) then fone else fzero))) (fun _ _ _ => Ok []).

(** Interpolation of a table whose values grow by one per pixel in one direction, and of
    a constant one. *)
Definition ex_libs : table_libs F :=
  mktl (fun ps vs p =>
          match ps, vs with
          | (y, x) :: _, v :: v' :: _ => if feqb v v' then fadd v (fsub (fst p) y) else fadd v (fsub (snd p) x)
          | _, _ => fzero
          end)
    (fun _ _ g _ _ => px g 0 0) (fun x => x) fone 1%nat.

Definition ex_whole : Whole.tile F nat :=
  Whole.mktile ex_tile_world (mkoptions (Name "galsim") (Name "affine") fzero fone 1 true None)
    [ex_image 1 (fun r c => fofZ (2 * r + c + 1)) 1; ex_unreadable; ex_image 3 (fun _ _ => fofZ 4) 3]
    (mkcw (fun x y => Ok (x, y)) (fun x y => Ok (x, y)) false) 0 ex_libs 4 1.

Definition ex_whole_objects : result (list (object (F := F))) :=
  build_object_data (cw_image2sky (t_coadd ex_whole)) (fun x y => Ok (x, y, y, x)) 1 1 4 3 0.
Definition ex_seeds : list src_seeds := snd (all_seeds Z (fun s => s) (fun g _ _ => (g, g + 1)) 50 4 3 0).
Definition ex_work objs i :=
  coadd_single_slice (tile_externals ex_whole ex_ext) ex_config "noise" (SingleSlice.mktile None (Some (4, 4)) 0) objs 0 ex_seeds (i, 50).
End Concrete.

(** The slice in row 1 and column 1 starts in row and column 1 of the coadd, which are row
    and column 4 of the images. The value in row y and column x of the slice is, up to
    rounding, (2 (y + 4) + x + 4) / 4 + 3 * 3 / 4. No pixel is
    marked; the bit is that of a tape bump of CCD 7. *)
Example C82_example :
  match @ex_whole_objects f64 F64Ops with
  | Ok objs =>
      match ex_work objs 3 with
      | Ok r =>
          forallb (fun yx => match px (r_image _ _ r) (fst yx) (snd yx) with
                             | PF v => fltb (fabs (fsub (fmul v (fofZ 4)) (fofZ (2 * fst yx + snd yx + 21)))) (fdec 1 6)
                             | PI _ => false
                             end) [(0, 0); (2, 1)] &&
          match px (r_bmask _ _ r) 1 1, px (r_ormask _ _ r) 1 1 with
          | PI b, PI m => (b =? 0) && (m =? 16384)
          | _, _ => false
          end &&
          (length (r_weights _ _ r) =? 2)%nat
      | Raise _ => false
      end
  | Raise _ => false
  end = true.
Proof. vm_compute. reflexivity. Qed.

(** A star in row 1 and column 3 of the coadd, which are row 4 and column 6 of the
    images: seen in the 6 x 6 pixels from row 2 and column 3 on. *)
Example C82_example_stars :
  let cut := mkslice 1 3 2 6 (full 6 6 fone) (full 6 6 fone) (full 6 6 0) [] (full 5 5 fone) 0 0 5 in
  match x_map_mask (tile_externals (@ex_whole f64 F64Ops) ex_ext)
          (mkimg 3 3 (fun r c => (r =? 0) && (c =? 2))) fone fone cut with
  | Ok g => forallb (fun yx => Bool.eqb (px g (fst yx) (snd yx)) ((fst yx =? 2) && (snd yx =? 3))) (allpix 6 6)
  | Raise _ => false
  end = true.
Proof. vm_compute. reflexivity. Qed.

(** The tile satisfies what [C82_slice_succeeds] asks for. *)
Lemma ex_ready : ready (@ex_whole R ROps) 0 ex_seeds 3 (4, 4).
Proof.
  constructor.
  - cbn. lra.
  - cbn. repeat constructor; cbn; intuition congruence.
  - assert (Hu : forall id im w ns ms,
      usable (@ex_tile_world R ROps) (t_options ex_whole)
        (mkentry id 0 1 ex_source (Ok (SeImage.mksrc 7 (fofZ 30) (mkimg 17 17 im) (full 17 17 fone) (full 17 17 (fofZ (Zpos w)))))
           (Ok (full 17 17 0)) ns ms) (AffineW ex_affine) 5%nat (17, 17)).
    { intros. constructor; cbn [fst snd]; try lia.
      - split; [constructor; reflexivity|]. split; constructor; reflexivity.
      - intros x y. cbn. eauto.
      - intros x y. cbn. eauto.
      - eexists. exists (full 17 17 0). split; [reflexivity|].
        repeat (split; [first [reflexivity|split; reflexivity]|]).
        split; [cbn; lia|]. right. exists 0, 0. split; [split; cbn; lia|]. cbn. apply (IZR_lt 0). lia.
      - discriminate.
      - intros q. eexists. split; [reflexivity|]. split; reflexivity.
      - discriminate. }
    assert (Es : ex_seeds = [([54], 55); ([56], 57); ([58], 59)]) by reflexivity. rewrite Es.
    intros e Hin He. apply seeded_given in Hin. cbn [seeded t_entries ex_whole] in Hin.
    destruct Hin as [<-|[<-|[<-|[]]]]; cbn [e_image_flags ex_unreadable] in He; try discriminate;
      (split; [cbn; lia|]; do 3 eexists; split; [apply Hu|]; cbn [fst snd t_se_delta ex_whole];
       split; [lia|]; split; [lia|]; discriminate).
  - cbn. lia.
  - cbn. lia.
  - cbn. lia.
  - cbn. lia.
  - intros. eexists. reflexivity.
  - intros. eexists. reflexivity.
  - discriminate.
Qed.

Example C82_example_succeeds :
  exists objs, @ex_whole_objects R ROps = Ok objs /\ length objs = 4%nat /\
  forall i, 0 <= i < 4 -> exists r, ex_work objs i = Ok r.
Proof.
  assert (E : exists objs, @ex_whole_objects R ROps = Ok objs /\ length objs = 4%nat).
  { unfold ex_whole_objects, build_object_data, Locate.build_slice_locations.
    cbn [ftrunc feqb fofZ fdiv ROps Z.eqb].
    replace (IZR (4 - 2 * 1) / IZR 1)%R with (IZR 2) by (cbn; lra). rewrite Ztrunc_IZR.
    unfold Reqb. destruct (Req_EM_T (IZR 2) (IZR 2)) as [_|N]; [|now elim N].
    eexists. split; reflexivity. }
  destruct E as (objs & E & L). exists objs. split; [exact E|]. split; [exact L|]. intros i Hi.
  destruct (nth_error objs (Z.to_nat i)) as [ob|] eqn:Eo; [|apply nth_error_None in Eo; lia].
  destruct (build_sizes _ _ _ _ _ _ _ objs E _ ob Eo) as (_ & Obox & Opsf).
  eapply (C82_slice_succeeds nat nat ex_whole ex_ext ex_config "noise" _ objs 0 ex_seeds i 50 ob None (4, 4)).
  - rewrite Obox. apply ex_ready.
  - intros. apply repeat_length.
  - intros. eexists. reflexivity.
  - intros. cbn. lra.
  - now left.
  - cbn. lra.
  - lia.
  - exact Eo.
  - rewrite Opsf. reflexivity.
  - reflexivity.
  - reflexivity.
Qed.

Print Assumptions C82_slice_succeeds.
Print Assumptions C82_file_from_the_pixels.
Print Assumptions C82_stars_are_not_counted.
Print Assumptions C82_psf_sums_to_one.
