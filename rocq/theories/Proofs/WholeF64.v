(** A slice as a whole, in double arithmetic: lookup tables, resampling and the
    assumptions of C72. *)
From Coq Require Import ZArith List Bool String Lia Reals Lra SpecFloat.
From Flocq Require Import Core BinarySingleNaN.
From Coq Require Import List.
From Verif Require Import Lib.Base Lib.Floats Model.Wrap Model.Jobs Model.Locate Model.ObjectData Model.Lanczos Model.WcsGrid
  Model.SeImage Model.SeWcs Model.PsfImage Model.Resample Model.SliceInputs Model.Coadd Model.SingleSlice Model.Epoch Model.Whole
  Spec.FloatSpec Spec.LanczosSpec Spec.WrapSpec Spec.CoaddSpec Spec.WcsGridSpec Spec.SeImageSpec Spec.SeWcsSpec Spec.PsfSpec
  Spec.ResampleSpec Spec.ResampleF64Spec Spec.SliceInputsSpec Spec.SingleSliceSpec Spec.EpochSpec Spec.EpochF64Spec
  Spec.WholeSpec Spec.WholeF64Spec
  Proofs.BaseFacts Proofs.F64Facts Proofs.SliceInputsProofs Proofs.WcsGridProofs Proofs.SeImageProofs Proofs.SeWcsProofs
  Proofs.LanczosProofs Proofs.ResampleProofs Proofs.PsfProofs Proofs.StampF64 Proofs.LanczosF64 Proofs.ResampleF64
  Proofs.EpochProofs Proofs.EpochF64 Proofs.WholeProofs
  Props.PropWrap Props.PropLanczos Props.PropResample Props.PropResampleF64.
Import ListNotations.
Open Scope list_scope.
Open Scope Z_scope.

#[local] Instance Hprec : Prec_gt_0 53 := eq_refl _.
#[local] Instance Hmax : Prec_lt_emax 53 1024 := eq_refl _.
#[local] Instance fexp64_ok : Valid_exp fexp64 := fexp_correct 53 1024 _.

Lemma plus_zero_is (x : f64) v : f64_is x v -> (Rabs v <= 4503599627370496)%R -> f64_is (fadd x (fzero : f64)) v.
Proof.
  intros Hx B.
  assert (G : rnd64 (v + 0) = v).
  { rewrite Rplus_0_r. destruct (f64_is_B _ _ Hx) as (b & _ & _ & <-). apply rnd_id. apply generic_format_B2R. }
  rewrite <- G. apply f64_add_is; [exact Hx|apply (f64_ofZ_is 0); cbn; lia|].
  rewrite Rplus_0_r. eapply Rle_trans; [exact B|]. change 4503599627370496%R with (bpow radix2 52). apply bpow_le. lia.
Qed.

Lemma Forall2_head {A B} (Q : A -> B -> Prop) a l m : Forall2 Q (a :: l) m ->
  exists b m', m = b :: m' /\ Q a b /\ Forall2 Q l m'.
Proof. intros H. inversion H; subst. eauto. Qed.

(** ** Resampling *)
Section Res.
Variables (to_se : Z -> Z -> f64 * f64) (area_se area_coadd : Z -> Z -> f64).

Lemma psf_from_double st pf px0 py0 n out : st_psf st = Some pf -> 1 <= pf_box_size pf ->
  resample_psf to_se area_se area_coadd st px0 py0 n fzero fzero = Ok out ->
  exists raw, resampled_double to_se area_se area_coadd sinc_pade (pf_psf pf) raw py0 px0
      (pf_y_start pf) (pf_x_start pf) n (pf_box_size pf) /\ divided_by_sum raw out.
Proof.
  intros Ep Hb H.
  destruct (resample_psf_spec _ _ _ _ _ _ _ _ _ _ H) as (pf' & raw & Ep' & S1 & S2 & -> & R1 & R2 & Hp).
  rewrite Ep in Ep'. injection Ep' as <-. exists raw. split; [|apply normalise_f64].
  split; [exact R1|]. split; [exact R2|].
  intros r c row col val area B M Hr Hc Hf HB BB HM Hw.
  destruct (falls_position _ _ _ _ _ _ _ _ _ Hf) as (Fr & Fc & Br & Bc).
  pose proof (plus_zero_is _ _ Fr Br) as Fr'. pose proof (plus_zero_is _ _ Fc Bc) as Fc'.
  destruct (pixel_near (pf_psf pf) area_se val area _ _ _ row col B M (pf_y_start pf) (pf_x_start pf) Fr' Fc' Br Bc HB BB HM)
    as (v & e & s & E & W & (w & Hv & Ew)).
  { rewrite S1, S2. exact Hw. }
  destruct (Hp r c Hr Hc) as (v' & e' & E' & V').
  assert (Ev : v' = v /\ e' = e).
  { pose proof (eq_trans (eq_sym E') E) as Q. injection Q as Q1 Q2. auto. }
  destruct Ev as (-> & ->).
  assert (Z0 : (if e then fzero else v) = v).
  { destruct e; [|reflexivity]. symmetry.
    exact (proj2 (C21_edge_iff_no_support_double (brightness area_se (pf_psf pf) (pf_y_start pf) (pf_x_start pf)) 3 _ _ v row col _
                ltac:(cbn [brightness nrows]; lia) ltac:(cbn [brightness ncols]; lia) ltac:(lia) Fr' Fc' E) eq_refl). }
  rewrite Z0 in V'. exists w, s. split; [rewrite V'; exact Hv|]. split; [rewrite S1, S2 in W; exact W|].
  change (bpow radix2 (-27)) with (/ 134217728)%R.
  replace (/ 134217728 * (M * Rabs B))%R with (Rabs B * M * / 134217728)%R by ring. exact Ew.
Qed.

Lemma resample_from_double u y0 x0 n py0 px0 pn o :
  let s := u_slice u in
  1 <= SliceInputs.sl_box_size s -> 1 <= SliceInputs.sl_psf_box_size s ->
  nrows (SliceInputs.sl_bmask s) = SliceInputs.sl_box_size s ->
  ncols (SliceInputs.sl_bmask s) = SliceInputs.sl_box_size s ->
  resample to_se area_se area_coadd (used_state u) x0 y0 n px0 py0 pn = Ok o ->
  resampled_from_double to_se area_se area_coadd sinc_pade y0 x0 n py0 px0 pn u
    (mkres (ro_image o) (ro_noises o) (ro_interp_frac o) (ro_psf o) (ro_bmask o) (ro_pmask o)).
Proof.
  intros s Hb Hpb Br Bc H. unfold used_state, state_of in H.
  match type of H with resample _ _ _ ?st _ _ _ _ _ _ = _ => set (S := st) in H end.
  pose proof (C63_same_kernel_for_all_images_double to_se area_se area_coadd S _ _ x0 y0 n px0 py0 pn o H eq_refl eq_refl)
    as (K1 & K2 & _ & K4).
  destruct (resample_spec to_se area_se area_coadd S y0 x0 n py0 px0 pn o H)
    as (sl & pf & it & Es & Ep & Ei & Hpsf & _ & _ & _ & _ & K).
  injection Es as Es. injection Ei as Ei.
  cbv zeta in K. destruct K as (KI & _ & _ & _ & (L1 & L2 & _) & pm & _ & L3 & L4 & _).
  constructor; cbn [rs_image rs_noises rs_interp_frac rs_psf rs_bmask rs_pmask].
  - exact K1.
  - exact K2.
  - exact K4.
  - injection Ep as Ep. exact (psf_from_double S _ px0 py0 pn _ eq_refl Hpb Hpsf).
  - split; [exact L1|]. split; [exact L2|]. split; [exact L3|]. split; [exact L4|].
    intros r c y x Hr Hc Hy Hx By Bx Sy Sx Py Px seen.
    destruct (C41_masks_of_the_nearest_pixel_double to_se area_se area_coadd S _ _ x0 y0 n px0 py0 pn o r c y x
                H eq_refl eq_refl Hr Hc Hy Hx By Bx Sy Sx Py Px) as (i & j & N1 & N2 & M1 & v & M2 & M3).
    cbn [SeImage.sl_bmask SeImage.sl_box_size SeImage.sl_y_start SeImage.sl_x_start it_pmask] in N1, N2, M1, M2.
    fold s in N1, N2, M1, M2. rewrite Br, Bc in M1, M2. exists i, j. fold s.
    split; [exact N1|]. split; [exact N2|]. split; [exact M1|]. exists v. split; [exact M2|].
    assert (Fa : falls_at to_se y0 x0 (SliceInputs.sl_y_start s) (SliceInputs.sl_x_start s) r c
                   (rnd64 (y - IZR (SliceInputs.sl_y_start s))) (rnd64 (x - IZR (SliceInputs.sl_x_start s)))).
    { exists y, x. split; [exact Hy|]. split; [exact Hx|]. split; [reflexivity|]. split; [reflexivity|].
      assert (G : forall (v : R) k, (Rabs v <= bpow radix2 30)%R -> Z.abs k <= 2 ^ 30 ->
                  (Rabs (v - IZR k) <= 2 ^ 52)%R /\ Z.abs k <= 2 ^ 53).
      { intros w k Bw Bk. split; [|lia]. eapply Rle_trans; [apply Rabs_triang|]. rewrite Rabs_Ropp, <- abs_IZR.
        apply IZR_le in Bk. change (bpow radix2 30) with 1073741824%R in Bw. change (IZR (2 ^ 30)) with 1073741824%R in Bk. lra. }
      destruct (G y _ By Sy). destruct (G x _ Bx Sx). auto. }
    destruct (falls_position _ _ _ _ _ _ _ _ _ Fa) as (Fr & Fc & _ & _).
    subst sl. destruct KI as (S1 & S2 & _ & _ & Q).
    cbn [SeImage.sl_image SeImage.sl_box_size SeImage.sl_y_start SeImage.sl_x_start] in *. fold s in S1, S2, Q.
    destruct (Q r c Hr Hc) as (v0 & E0 & _).
    pose proof (C21_edge_iff_no_support_double (brightness area_se (SliceInputs.sl_image s) (SliceInputs.sl_y_start s) (SliceInputs.sl_x_start s))
                  3 _ _ v0 _ _ _
                ltac:(cbn [brightness nrows]; lia) ltac:(cbn [brightness ncols]; lia) ltac:(lia) Fr Fc E0) as [E _].
    unfold inb in E. cbn [brightness nrows ncols] in E. rewrite S1, S2 in E.
    destruct (px (ro_edge o) r c); rewrite M3; (split; [|]).
    + intros (k & l & Hk & Hl & Wk & Wl). exfalso. apply (proj1 E eq_refl k l (conj Hk Hl)). auto.
    + reflexivity.
    + reflexivity.
    + intros N. exfalso. enough (false = true) by discriminate. apply E. intros k l [Hk Hl] [Wk Wl].
      apply N. exists k, l. auto.
Qed.
End Res.

(** ** Tables *)
Section W.
Context {P : Type}.
Variable t : tile f64 P.
Notation w := (t_world t).
Notation op := (t_options t).

Lemma wrap_double fuel (x y : f64) : wrap_ra_diff fuel x = Some y -> wrapped_double x y.
Proof. intros H v Hx B. exact (C15_double_exact x y v fuel Hx B H). Qed.

Lemma pixel_area_double i2s cel x y a : pixel_area t i2s cel x y = Ok (Some a) -> area_at_double t i2s cel x y a.
Proof.
  unfold pixel_area. intros H.
  apply bind_ok in H as ([r0 d0] & E0 & H). apply bind_ok in H as ([r1 d1] & E1 & H).
  apply bind_ok in H as ([r2 d2] & E2 & H). apply bind_ok in H as ([r3 d3] & E3 & H).
  apply bind_ok in H as ([r4 d4] & E4 & H). apply Ok_inj in H.
  unfold compute_wcs_area, known in H. rewrite E0, E1, E2, E3, E4 in H.
  unfold area_at_double. exists r0, d0, r1, d1, r2, d2, r3, d3, r4, d4. repeat (split; [assumption|]).
  destruct cel.
  - destruct (wrap_ra_diff _ (fsub r1 r2)) as [dx|] eqn:Ex; [|discriminate].
    destruct (wrap_ra_diff _ (fsub r3 r4)) as [dy|] eqn:Ey; [|discriminate].
    exists dx, dy. split; [exact (wrap_double _ _ _ Ex)|]. split; [exact (wrap_double _ _ _ Ey)|].
    injection H as <-. reflexivity.
  - injection H as <-. reflexivity.
Qed.

Lemma area_table_inv_double i2s cel shape delta off g : 0 < delta -> 0 <= fst shape -> 0 <= snd shape ->
  Whole.area_table t i2s cel shape delta off = Ok g -> area_table_double t i2s cel shape delta off g.
Proof.
  intros Hd Hy Hx H. unfold Whole.area_table in H. apply bind_ok in H as (pos & Hp & H).
  apply bind_ok in H as (as_ & Ha & H).
  destruct (get_wcs_area_interp _ _ _ _) as [r|] eqn:E; [|discriminate]. subst r.
  destruct shape as [dy dx]. cbn [fst snd] in *.
  destruct (WcsGridProofs.area_table _ _ _ _ _ _ Hd Hy Hx E) as (Ex & Ey & _ & _ & Hv).
  destruct (mgrid_spec _ _ _ Hd Hx Ex) as (Nx & Ix & _).
  destruct (mgrid_spec _ _ _ Hd Hy Ey) as (Ny & Iy & _).
  split; [exact Nx|]. split; [exact Ny|]. split; [exact Ix|]. split; [exact Iy|].
  intros i j a b Ai Bj. specialize (Hv _ _ _ _ Ai Bj). apply pixel_area_double.
  unfold before. unfold fhalf, fdec in Hv.
  destruct (pixel_area _ _ _ _ _) as [o|]; [|discriminate]. now rewrite Hv.
Qed.

Lemma image2sky1_sky_double e W x y :
  image2sky1 (mksw W (fofZ (e_offset e)) (op_color op)) x y = sky_of_double t e W x y.
Proof. rewrite image2sky1_own. reflexivity. Qed.

Lemma wcs_tables_double e W o inv fwd : so_wcs o = mksw W (fofZ (e_offset e)) (op_color op) ->
  0 < t_se_delta t -> 0 <= fst (so_shape o) -> 0 <= snd (so_shape o) ->
  wcs_tables t o = Ok (inv, fwd) -> position_table_double t e W (so_shape o) inv.
Proof.
  intros Ew Hd Hy Hx H. unfold wcs_tables in H.
  apply bind_ok in H as (pos & Hp & H). apply bind_ok in H as (sky & Hs & H).
  apply bind_ok in H as (cs & Hc & H). apply each_inv in Hs, Hc.
  destruct (so_shape o) as [dy dx] eqn:Esh. cbn [fst snd] in *.
  destruct (inverse_shape _ _ _ _ _ _ _ _ H) as (ys & xs & Ey & Ex & Ei & _). cbv zeta in Ei.
  destruct (mgrid_spec _ _ _ Hd Hx Ex) as (Nx & Ix & _).
  destruct (mgrid_spec _ _ _ Hd Hy Ey) as (Ny & Iy & _).
  assert (Epos : pos = map (fun p => (fsub (fofZ (fst p)) fhalf, fsub (fofZ (snd p)) fhalf) : f64 * f64) (mgrid_pairs ys xs)).
  { unfold se_positions in Hp. rewrite Ey, Ex in Hp. cbn [bind] in Hp. apply Ok_inj in Hp as <-. reflexivity. }
  exists (map (fun p => (snd p, fst p)) (mgrid_pairs ys xs)).
  split. { apply FinFun.Injective_map_NoDup; [|now apply NoDup_pairs]. intros [a b] [a' b']. cbn. congruence. }
  split.
  { intros x y. rewrite in_map_iff. rewrite <- Ix, <- Iy. split.
    - intros ([a b] & E & I). cbn in E. injection E as -> ->. apply In_pairs in I. tauto.
    - intros I. exists (y, x). split; [reflexivity|]. apply In_pairs. tauto. }
  subst inv. cbn [inv_x inv_y inv_pts]. rewrite !map_map. cbn [fst snd].
  split; [reflexivity|]. split; [reflexivity|].
  subst pos. clear - Hs Hc Ew. revert cs sky Hs Hc. generalize (mgrid_pairs ys xs) as l.
  induction l as [|p l IH]; intros cs sky Hs Hc; [constructor|].
  cbn [map] in Hs |- *. apply Forall2_head in Hs as (s & ss & -> & Hps & Hs').
  apply Forall2_head in Hc as (c & cs' & -> & Hcs & Hc').
  constructor; [|eapply IH; eassumption].
  cbn [fst snd] in *. unfold known. destruct s as [ra dec], c as [xc yc].
  change (before (fst p)) with (fsub (fofZ (fst p)) (fhalf : f64)). change (before (snd p)) with (fsub (fofZ (snd p)) (fhalf : f64)).
  rewrite Hps. cbn [fst snd] in *. rewrite Hcs. cbn [fst snd].
  exists ra, dec, xc, yc. rewrite Ew, image2sky1_sky_double in Hps. split; [exact Hps|]. split; [exact Hcs|]. reflexivity.
Qed.

Lemma wcs_tables_fwd_double e W o inv fwd : so_wcs o = mksw W (fofZ (e_offset e)) (op_color op) ->
  0 < t_se_delta t -> 0 <= fst (so_shape o) -> 0 <= snd (so_shape o) ->
  wcs_tables t o = Ok (inv, fwd) -> coadd_table_double t e W (so_shape o) fwd.
Proof.
  intros Ew Hd Hy Hx H. unfold wcs_tables in H.
  apply bind_ok in H as (pos & Hp & H). apply bind_ok in H as (sky & Hs & H).
  apply bind_ok in H as (cs & Hc & H). apply each_inv in Hs, Hc.
  destruct (so_shape o) as [dy dx] eqn:Esh. cbn [fst snd] in *.
  destruct (inverse_shape _ _ _ _ _ _ _ _ H) as (ys & xs & Ey & Ex & _ & Ef).
  destruct (mgrid_spec _ _ _ Hd Hx Ex) as (Nx & Ix & _).
  destruct (mgrid_spec _ _ _ Hd Hy Ey) as (Ny & Iy & _).
  assert (Epos : pos = map (fun p => (fsub (fofZ (fst p)) fhalf, fsub (fofZ (snd p)) fhalf) : f64 * f64) (mgrid_pairs ys xs)).
  { unfold se_positions in Hp. rewrite Ey, Ex in Hp. cbn [bind] in Hp. apply Ok_inj in Hp as <-. reflexivity. }
  assert (Efp : inv_pts fwd = pos) by (rewrite Ef, Epos; reflexivity).
  exists (map (fun p => (snd p, fst p)) (mgrid_pairs ys xs)), (combine (inv_x fwd) (inv_y fwd)).
  split. { apply FinFun.Injective_map_NoDup; [|now apply NoDup_pairs]. intros [a b] [a' b']. cbn. congruence. }
  split.
  { intros x y. rewrite in_map_iff. rewrite <- Ix, <- Iy. split.
    - intros ([a b] & E & I). cbn in E. injection E as -> ->. apply In_pairs in I. tauto.
    - intros I. exists (y, x). split; [reflexivity|]. apply In_pairs. tauto. }
  split. { rewrite Efp, Epos, map_map. reflexivity. }
  unfold get_wcs_inverse in H. cbn [fst snd] in H. rewrite Hp in H. cbn [bind] in H. apply Ok_inj in H.
  apply pair_equal_spec in H as [_ H]. unfold inversion_init in H. subst fwd. cbn [inv_x inv_y inv_pts] in *.
  rewrite !map_map, combine_map2, !map_map. cbn [fst snd].
  split; [reflexivity|]. split; [reflexivity|].
  clear Ef Efp. subst pos. clear - Hs Hc Ew. revert cs sky Hs Hc. generalize (mgrid_pairs ys xs) as l.
  induction l as [|p l IH]; intros cs sky Hs Hc; [constructor|].
  cbn [map] in Hs |- *. apply Forall2_head in Hs as (s & ss & -> & Hps & Hs').
  apply Forall2_head in Hc as (c & cs' & -> & Hcs & Hc').
  constructor; [|eapply IH; eassumption].
  cbn [fst snd] in *. unfold known. destruct s as [ra dec], c as [xc yc].
  change (before (fst p)) with (fsub (fofZ (fst p)) (fhalf : f64)). change (before (snd p)) with (fsub (fofZ (snd p)) (fhalf : f64)).
  rewrite Hps. cbn [fst snd] in *. rewrite Hcs. cbn [fst snd].
  exists ra, dec, xc, yc. rewrite Ew, image2sky1_sky_double in Hps. split; [exact Hps|]. split; [exact Hcs|]. reflexivity.
Qed.

(** The arrays of a slice that is cut out, wherever it is. *)
Lemma examine_shaped frac ra dec rp dp box e s flag :
  f64_is (op_frac_buffer op) frac ->
  (1 <= frac * IZR box)%R -> (Rabs (frac * IZR box) <= bpow radix2 30)%R -> Z.abs box <= 2 ^ 30 ->
  (e_image_flags e = 0 -> files_agree w op e) ->
  examine w op ra dec rp dp box e = Ok (Some (s, flag)) ->
  SliceInputsSpec.shaped (SliceInputs.sl_box_size s) (SliceInputs.sl_box_size s) s /\ 1 <= SliceInputs.sl_box_size s.
Proof.
  intros Hf Hb Bf Bb Hfiles H. unfold examine in H.
  destruct (Z.eqb_spec (e_image_flags e) 0) as [Hfl|Hfl]; cbn [negb] in H; [|discriminate].
  specialize (Hfiles Hfl). apply bind_ok in H as (o & Ho & H).
  destruct (se_contains_radec (w_radec_to_uv w) o ra dec) eqn:Hc; cbn [negb] in H; [|discriminate].
  apply bind_ok in H as ([col row] & Hpos & H). apply bind_ok in H as (b & Hbnd & H).
  destruct (make_object_image w op e o Ho) as [Him _].
  destruct (ccd_contains_bounds (so_shape o) b (op_edge_buffer op)) eqn:Hcon; cbn [negb] in H; [|discriminate].
  apply bind_ok in H as ([s' fl] & Hs & H). apply Ok_inj in H. injection H as -> ->.
  assert (Hn : exists n, square_of b n /\ 1 <= n).
  { unfold compute_slice_bounds in Hbnd.
    assert (Hp : f64_is (fmul (op_frac_buffer op) (fofZ box)) (rnd64 (frac * IZR box))).
    { apply f64_mul_is; [exact Hf|apply f64_ofZ_is; lia|]. eapply Rle_trans; [exact Bf|]. apply bpow_le. lia. }
    change (ftrunc (fmul (op_frac_buffer op) (fofZ box))) with (f64_trunc (fmul (op_frac_buffer op) (fofZ box))) in Hbnd.
    rewrite (f64_trunc_is _ _ Hp) in Hbnd.
    destruct (ffloor _) as [z1|]; [|discriminate]. destruct (ffloor _) as [z2|]; [|discriminate].
    apply Ok_inj in Hbnd. subst b.
    set (k := Ztrunc (rnd64 (frac * IZR box))) in *.
    exists (if negb (k mod 2 =? box mod 2) then k + 1 else k). split; [split; cbn; lia|].
    assert (R1 : (1 <= rnd64 (frac * IZR box))%R).
    { unfold rnd64. rewrite <- (rnd_id 1) by (apply (int_format 1); cbn; lia).
      apply round_le; [typeclasses eauto|typeclasses eauto|exact Hb]. }
    assert (1 <= k).
    { unfold k. rewrite Ztrunc_floor by lra. apply Zfloor_lub. exact R1. }
    destruct (negb _); lia. }
  destruct Hn as (n & Sq & Hn).
  unfold fill_object in Hs. apply bind_ok in Hs as (pixels & Hp & H). apply bind_ok in H as (bmask & Hm & H).
  destruct (Hfiles _ _ _ _ _ Him Hp Hm) as (F1 & F2 & F3 & F4).
  apply bind_ok in H as ([sl bm] & Hs & H). apply bind_ok in H as ([x y] & Hxy & H).
  apply bind_ok in H as ([pf fl] & Hpf & H). apply Ok_inj in H. apply pair_equal_spec in H as [Es _].
  destruct (proj1 (set_slice_spec (w_pow10 w) (w_normal w) (w_store w) pixels (op_tape_bumps op) (e_noise_seeds e)
              bmask b (so_shape o) (op_edge_buffer op) n F1 F2 F3 F4 Hn Sq Hcon) sl bm Hs)
    as (X1 & X2 & X3 & (I1 & I2 & _) & (W1 & W2 & _) & (M1 & M2 & _) & _ & X8).
  subst s. cbn [SliceInputs.sl_box_size]. rewrite X3. split; [|exact Hn].
  unfold SliceInputsSpec.shaped, shape_is.
  cbn [SliceInputs.sl_image SliceInputs.sl_weight SliceInputs.sl_bmask SliceInputs.sl_noises].
  repeat (split; [first [assumption|split; assumption|lia]|]).
  clear -X8. induction X8 as [|a b0 l l' (nse & _ & N1 & N2 & _) N IH]; constructor; [split; assumption|exact IH].
Qed.

Lemma map_mask_shape_double mk row col s g : map_mask t mk row col s = Ok g ->
  shape_is (SliceInputs.sl_box_size s) (SliceInputs.sl_box_size s) g.
Proof.
  unfold map_mask. intros H. apply bind_ok in H as (o & _ & H). apply bind_ok in H as ([inv fwd] & _ & H).
  apply bind_ok in H as (x0 & _ & H). apply bind_ok in H as (y0 & _ & H).
  match type of H with map_image_by_nearest_pixel ?z ?f ?m ?x ?y ?st = _ =>
    destruct (map_image_spec z f m x y st _ eq_refl) as (out & E & S1 & S2 & _) end.
  rewrite E in H. apply Ok_inj in H as <-. split; assumption.
Qed.

Lemma start_is (v : f64) (z : Z) : f64_is v (IZR z) -> start v = Ok z.
Proof.
  intros H. unfold start. change (ffloor v) with (f64_floor v). rewrite (f64_floor_is _ _ H), Zfloor_IZR. reflexivity.
Qed.

Lemma resample_used_double seeds e W m shape frac ra dec rp dp box s flag u (row col prow pcol : f64) y0 x0 py0 px0 n pn cshape d :
  (1 <= frac * IZR box)%R -> NoDup (map e_image_id (t_entries t)) ->
  0 < t_se_delta t -> 0 < t_coadd_delta t -> 0 <= fst cshape -> 0 <= snd cshape ->
  In e (seeded (t_entries t) seeds) -> image_of w op e W m shape -> ordinary_image w op ra dec rp dp e ->
  kept_from_double w op frac ra dec rp dp box e W m shape s flag ->
  SliceInputsSpec.shaped (SliceInputs.sl_box_size s) (SliceInputs.sl_box_size s) s ->
  made_from s u ->
  f64_is row (IZR y0) -> f64_is col (IZR x0) -> f64_is prow (IZR py0) -> f64_is pcol (IZR px0) ->
  resample_used t row col n prow pcol pn cshape u = Ok d ->
  seen_on_stamp_double t sinc_pade e W shape cshape y0 x0 n py0 px0 pn u d.
Proof.
  intros Hb Hids Hd1 Hd2 Hc1 Hc2 Hin Him Hord Hk Hsh Hmf Sr Sc Spr Spc H. unfold resample_used in H.
  pose proof (box_positive_double _ _ _ Hb (kd_box _ _ _ _ _ _ _ _ _ _ _ _ _ _ Hk)) as Hbox.
  apply bind_ok in H as (o & Ho & H). rewrite (mf_id _ _ Hmf), (kd_id _ _ _ _ _ _ _ _ _ _ _ _ _ _ Hk) in Ho.
  rewrite (find_object_entry t seeds e Hids Hin) in Ho.
  destruct (make_object_image _ _ _ _ Ho) as (Him' & Ew).
  destruct (image_of_unique t _ _ _ _ _ _ _ Him Him') as (E1 & E2 & E3). rewrite E1 in Ew.
  destruct (kd_fits _ _ _ _ _ _ _ _ _ _ _ _ _ _ Hk) as (F1 & F2 & F3 & F4).
  apply bind_ok in H as ([inv fwd] & Ht & H). apply bind_ok in H as (ga & Hga & H).
  apply bind_ok in H as (gc & Hgc & H). rewrite (start_is _ _ Sr), (start_is _ _ Sc), (start_is _ _ Spr), (start_is _ _ Spc) in H.
  cbn [bind] in H. apply bind_ok in H as (r & Hr & H). apply Ok_inj in H as <-.
  exists inv, ga, gc.
  assert (S1 : 0 <= fst (so_shape o) /\ 0 <= snd (so_shape o)) by (rewrite E3; lia). destruct S1 as (S1 & S2).
  split. { rewrite <- E3. eapply wcs_tables_double; eassumption. }
  split.
  { rewrite <- E3. apply area_table_inv_double in Hga; [|assumption..]. rewrite Ew in Hga. cbn [sw_wcs] in Hga.
    revert Hga. unfold area_table_double, area_at_double. setoid_rewrite image2sky1_sky_double. intros Hga. exact Hga. }
  split; [apply area_table_inv_double in Hgc; [exact Hgc|assumption..]|].
  destruct (mf_shapes _ _ Hmf _ _ Hsh) as ((_ & _ & _ & _ & (B1 & B2) & _) & _).
  rewrite <- (mf_box_size _ _ Hmf) in Hbox, B1, B2.
  assert (Hp : 1 <= SliceInputs.sl_psf_box_size (u_slice u)).
  { rewrite (mf_psf_box_size _ _ Hmf).
    destruct (kd_psf _ _ _ _ _ _ _ _ _ _ _ _ _ _ Hk) as (x & y & q & raw & _ & _ & Hq & (D1 & _) & P1 & _).
    destruct Hord as [_ Hord]. destruct (Hord _ _ _ Him) as (_ & _ & O3). specialize (O3 _ _ _ Hq). lia. }
  exact (resample_from_double _ _ _ u _ _ _ _ _ _ r Hbox Hp B1 B2 Hr).
Qed.

Lemma map_mask_double seeds e W m shape frac ra dec rp dp box s flag s1 mk (row col : f64) y0 x0 g :
  (1 <= frac * IZR box)%R -> NoDup (map e_image_id (t_entries t)) -> 0 < t_se_delta t ->
  In e (seeded (t_entries t) seeds) -> image_of w op e W m shape ->
  kept_from_double w op frac ra dec rp dp box e W m shape s flag ->
  SliceInputs.sl_image_id s1 = SliceInputs.sl_image_id s ->
  f64_is row (IZR y0) -> f64_is col (IZR x0) -> Z.abs y0 <= 2 ^ 30 -> Z.abs x0 <= 2 ^ 30 ->
  map_mask t mk row col s1 = Ok g ->
  mask_on_image_double t e W shape y0 x0 (SliceInputs.sl_y_start s1) (SliceInputs.sl_x_start s1)
    (SliceInputs.sl_box_size s1) mk g.
Proof.
  intros Hb Hids Hd Hin Him Hk Eid Sr Sc By Bx H. unfold map_mask in H.
  pose proof (box_positive_double _ _ _ Hb (kd_box _ _ _ _ _ _ _ _ _ _ _ _ _ _ Hk)) as Hbox.
  apply bind_ok in H as (o & Ho & H). rewrite Eid, (kd_id _ _ _ _ _ _ _ _ _ _ _ _ _ _ Hk) in Ho.
  rewrite (find_object_entry t seeds e Hids Hin) in Ho.
  destruct (make_object_image _ _ _ _ Ho) as (Him' & Ew).
  destruct (image_of_unique t _ _ _ _ _ _ _ Him Him') as (E1 & E2 & E3). rewrite E1 in Ew.
  destruct (kd_fits _ _ _ _ _ _ _ _ _ _ _ _ _ _ Hk) as (F1 & F2 & F3 & F4).
  apply bind_ok in H as ([inv fwd] & Ht & H). rewrite (start_is _ _ Sr), (start_is _ _ Sc) in H. cbn [bind] in H.
  match type of H with map_image_by_nearest_pixel ?z ?f ?m ?x ?y ?st = _ =>
    destruct (C42_nearest_coadd_pixel_double _ z f m x y st _ eq_refl Bx By) as (out & E & N1 & N2 & N3) end.
  rewrite E in H. apply Ok_inj in H as <-. split; [exact N1|]. split; [exact N2|].
  exists fwd. assert (S1 : 0 <= fst (so_shape o) /\ 0 <= snd (so_shape o)) by (rewrite E3; lia). destruct S1 as (S1 & S2).
  split. { rewrite <- E3. eapply wcs_tables_fwd_double; eassumption. }
  intros r c vr vc Hr Hc. cbv zeta. intros P1 P2 P3 P4.
  destruct (N3 r c vr vc Hr Hc P1 P2 P3 P4) as (i & j & A & B & Q1 & Q2).
  exists i, j. split; [exact A|]. split; [exact B|].
  destruct (Z_lt_dec i 0) as [|I1]; [rewrite Q2 by (unfold inb; lia); unfold inb; split; [discriminate|lia]|].
  destruct (Z_lt_dec i (nrows mk)) as [I2|]; [|rewrite Q2 by (unfold inb; lia); unfold inb; split; [discriminate|lia]].
  destruct (Z_lt_dec j 0) as [|I3]; [rewrite Q2 by (unfold inb; lia); unfold inb; split; [discriminate|lia]|].
  destruct (Z_lt_dec j (ncols mk)) as [I4|]; [|rewrite Q2 by (unfold inb; lia); unfold inb; split; [discriminate|lia]].
  rewrite Q1 by (unfold inb; lia). unfold inb. split; [intros X; split; [lia|exact X]|tauto].
Qed.
End W.

(** The assumptions of C72. *)
Section Ext.
Context {P RNG : Type}.
Variable t : tile f64 P.
Variable libs : externals (F := f64) (RNG := RNG).
Notation w := (t_world t).
Notation op := (t_options t).
Variables (frac : R) (box : Z).
Hypothesis Hf : f64_is (op_frac_buffer op) frac.
Hypothesis Hb : (1 <= frac * IZR box)%R.
Hypothesis Bf : (Rabs (frac * IZR box) <= bpow radix2 30)%R.
Hypothesis Bb : Z.abs box <= 2 ^ 30.

Lemma source_shaped seeds ra dec rp dp src s :
  (forall e, In e (seeded (t_entries t) seeds) -> e_image_flags e = 0 -> files_agree w op e) ->
  In src (x_sources (tile_externals t libs) seeds ra dec rp dp box) -> src_slice src = Ok s ->
  SliceInputsSpec.shaped (SliceInputs.sl_box_size s) (SliceInputs.sl_box_size s) s.
Proof.
  intros Hfa Hin Hs. cbn [tile_externals x_sources] in Hin. apply in_map_iff in Hin as (e & <- & Hin).
  apply answers_slice in Hs. eapply examine_shaped; try eassumption. exact (Hfa e Hin).
Qed.

Lemma source_kept_double seeds ra dec rp dp src s :
  (forall e, In e (seeded (t_entries t) seeds) -> e_image_flags e = 0 -> files_agree w op e) ->
  (forall e, In e (seeded (t_entries t) seeds) -> e_image_flags e = 0 -> ordinary_image w op ra dec rp dp e) ->
  In src (x_sources (tile_externals t libs) seeds ra dec rp dp box) -> src_slice src = Ok s ->
  exists e W m shape, In e (seeded (t_entries t) seeds) /\ e_image_flags e = 0 /\ image_of w op e W m shape /\
    kept_from_double w op frac ra dec rp dp box e W m shape s (src_psf_flag src).
Proof.
  intros Hfa Ho Hin Hs. cbn [tile_externals x_sources] in Hin. apply in_map_iff in Hin as (e & <- & Hin).
  apply answers_slice in Hs.
  destruct (Z.eq_dec (e_image_flags e) 0) as [E|E].
  - apply (examine_decides_double w op frac ra dec rp dp box e _ Hf Hb Bf Bb (Hfa e Hin E) (fun _ => Ho e Hin E)) in Hs.
    destruct Hs as (W & m & shape & H1 & H2). exists e, W, m, shape. auto.
  - rewrite (examine_flagged w op ra dec rp dp box e E) in Hs. discriminate.
Qed.

Lemma tile_right_shapes seeds :
  (forall e, In e (seeded (t_entries t) seeds) -> e_image_flags e = 0 -> files_agree w op e) ->
  (forall r n x, length (fst (x_normal libs r n x)) = n) ->
  right_shapes (tile_externals t libs) seeds box.
Proof.
  intros Hfa Hn. constructor.
  - exact Hn.
  - intros ra dec rp dp src s Hin Hs. pose proof (source_shaped _ _ _ _ _ _ _ Hfa Hin Hs). eauto.
  - intros m row col s g nr nc Hsh (ra & dec & rp & dp & src & s0 & Hin & _ & Hs0 & _ & _ & _ & Eb & Hsame) Hg.
    pose proof (source_shaped _ _ _ _ _ _ _ Hfa Hin Hs0) as Sh.
    apply Hsame in Sh. destruct Sh as (_ & _ & (A1 & A2) & _). destruct Hsh as (_ & _ & (B1 & B2) & _).
    cbn [tile_externals x_map_mask] in Hg. apply map_mask_shape_double in Hg. rewrite Eb in Hg.
    assert (nr = SliceInputs.sl_box_size s0) as -> by lia. assert (nc = SliceInputs.sl_box_size s0) as -> by lia.
    exact Hg.
Qed.
End Ext.
