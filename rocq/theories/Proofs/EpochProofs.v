(** Proofs about the images that contribute to a slice. *)
From Coq Require Import ZArith List Bool String Reals Lia Lra.
From Coq Require Import List.
From Flocq Require Import Raux.
From Verif Require Import Lib.Base Lib.Floats Model.Noise Model.SeWcs Model.TapeBumps Model.SeImage Model.PsfImage
  Model.Piff Model.SliceInputs Model.Epoch
  Spec.SeImageSpec Spec.SeWcsSpec Spec.PsfSpec Spec.SliceInputsSpec Spec.EpochSpec
  Proofs.SliceInputsProofs Proofs.SeImageProofs Proofs.SeWcsProofs Proofs.PsfProofs
  Props.PropSeImage Props.PropPsf Props.PropPiff Props.PropSeWcs.
Import ListNotations.
Open Scope list_scope.
Open Scope Z_scope.

Section G.
Context {F : Type} {FO : FloatOps F} {P : Type}.
Variable w : world F P.
Variable op : options F P.

Lemma rough_cut_answers ra dec rp dp box l :
  rough_cut (map (answers w op ra dec rp dp box) l) = find_slices w op ra dec rp dp box l.
Proof.
  induction l as [|e l IH]; [reflexivity|]. cbn [map rough_cut find_slices].
  remember (answers w op ra dec rp dp box e) as a eqn:Ea. unfold answers in Ea.
  destruct (examine w op ra dec rp dp box e) as [[[s flag]|]|x]; subst a; cbn [src_image_flags src_contains_radec
    src_contains_bounds src_slice src_psf_flag Z.eqb andb bind].
  - rewrite IH. destruct (find_slices _ _ _ _ _ _ _ l); reflexivity.
  - rewrite andb_false_r. cbn [andb]. rewrite IH.
    destruct (find_slices _ _ _ _ _ _ _ l); reflexivity.
  - reflexivity.
Qed.

Lemma find_slices_app ra dec rp dp box l1 l2 :
  find_slices w op ra dec rp dp box (l1 ++ l2) =
  (a <- find_slices w op ra dec rp dp box l1 ;; b <- find_slices w op ra dec rp dp box l2 ;; Ok (a ++ b)).
Proof.
  induction l1 as [|e l1 IH]; cbn [app find_slices bind].
  - destruct (find_slices _ _ _ _ _ _ _ l2); reflexivity.
  - destruct (examine w op ra dec rp dp box e) as [a|x]; [cbn [bind]|reflexivity].
    rewrite IH. destruct (find_slices _ _ _ _ _ _ _ l1) as [k|x]; [cbn [bind]|reflexivity].
    destruct (find_slices _ _ _ _ _ _ _ l2) as [k2|x]; [cbn [bind]|reflexivity].
    destruct a; reflexivity.
Qed.

Lemma examine_flagged ra dec rp dp box e :
  e_image_flags e <> 0 -> examine w op ra dec rp dp box e = Ok None.
Proof. intros H. unfold examine. apply Z.eqb_neq in H. rewrite H. reflexivity. Qed.

Lemma find_slices_inv ra dec rp dp box l kept :
  find_slices w op ra dec rp dp box l = Ok kept <->
  exists marks : list (option (SliceInputs.se_slice (F := F) * bool)),
    Forall2 (fun e a => examine w op ra dec rp dp box e = Ok a) l marks /\
    kept = flat_map (fun a => match a with Some sp => [sp] | None => [] end) marks.
Proof.
  split.
  - revert kept. induction l as [|e l IH]; intros kept H; cbn [find_slices] in H.
    + apply Ok_inj in H as <-. exists []. split; [constructor|reflexivity].
    + apply bind_ok in H as (a & Ha & H). apply bind_ok in H as (rest & Hr & H). apply Ok_inj in H as <-.
      destruct (IH rest Hr) as (ms & Hm & E). exists (a :: ms). split; [constructor; assumption|].
      cbn [flat_map]. rewrite <- E. destruct a; reflexivity.
  - intros (ms & Hm & E). subst kept. induction Hm as [|e a l ms He Hm IH]; [reflexivity|].
    cbn [find_slices flat_map]. rewrite He. cbn [bind]. rewrite IH. cbn [bind]. destruct a; reflexivity.
Qed.
Lemma tested_iff e m : piff_model w e m <-> tested_model w e = Ok m.
Proof.
  unfold piff_model, tested_model, need. split.
  - intros (p & k & W & -> & -> & E). cbn [bind]. rewrite E. reflexivity.
  - intros H. apply bind_ok in H as (p & Hp & H). apply bind_ok in H as (k & Hk & H).
    apply bind_ok in H as ([m' W] & Hr & H). apply Ok_inj in H. cbn [fst] in H. subst m'. exists p, k, W.
    destruct (s_piff_path (e_info e)); [|discriminate]. destruct (s_ccdnum (e_info e)); [|discriminate].
    apply Ok_inj in Hp, Hk. now subst.
Qed.

Lemma make_object_image e o : make_object w op e = Ok o ->
  image_of w op e (sw_wcs (so_wcs o)) (so_psf o) (so_shape o) /\
  so_wcs o = mksw (sw_wcs (so_wcs o)) (fofZ (e_offset e)) (op_color op).
Proof.
  intros H. apply init_inv in H as (A & B & C & D & E & _). split; [split; [exact A|split; [exact B|exact C]]|].
  destruct (so_wcs o). cbn in *. now subst.
Qed.

Lemma fits_iff shape b n : square_of b n -> 1 <= n ->
  (ccd_contains_bounds shape b (op_edge_buffer op) = true <->
   box_fits op shape (zrowmin b) (zcolmin b) n).
Proof.
  intros [S1 S2] Hn. rewrite (contains_spec shape b (op_edge_buffer op)) by lia. unfold box_fits. split.
  - intros H. pose proof (H (zrowmin b) (zcolmin b) ltac:(unfold in_zbounds; lia)).
    pose proof (H (zrowmax b) (zcolmax b) ltac:(unfold in_zbounds; lia)). lia.
  - intros H r c K. unfold in_zbounds in K. lia.
Qed.

End G.

Section R.
Context {P : Type}.
Variable w : world R P.
Variable op : options R P.

Lemma located_iff e o ra dec x y : make_object w op e = Ok o ->
  (sky2image1 (so_wcs o) ra dec = Ok (x, y) <-> located op e (sw_wcs (so_wcs o)) ra dec x y).
Proof.
  intros H. apply make_object_image in H as [_ E]. cbn [fofZ ROps] in E. unfold located. rewrite E at 1.
  rewrite sky2image1_own. cbn [sw_wcs sw_offset sw_color].
  destruct (own_image (sw_wcs (so_wcs o)) (op_color op) ra dec) as [[a b]|x0]; cbn [fsub ROps].
  - split; intros K; apply Ok_inj in K; apply pair_equal_spec in K as [K1 K2]; subst; f_equal; f_equal; ring.
  - split; discriminate.
Qed.

Lemma bounds_box box col row b :
  compute_slice_bounds (op_frac_buffer op) box col row = Ok b ->
  exists n, square_of b n /\ box_of op box n /\ centred col (zcolmin b) n /\ centred row (zrowmin b) n.
Proof.
  intros H. destruct (slice_bounds_R (op_frac_buffer op) box col row) as (b' & n & E & S & M & N & C1 & C2).
  rewrite H in E. apply Ok_inj in E. subst b'. exists n. split; [exact S|]. split; [split; [exact M|exact N]|].
  destruct S as [S1 S2]. unfold centred.
  assert (E1 : IZR (zcolmax b) = (IZR (zcolmin b) + IZR n - 1)%R)
    by (rewrite <- plus_IZR, <- minus_IZR; f_equal; lia).
  assert (E2 : IZR (zrowmax b) = (IZR (zrowmin b) + IZR n - 1)%R)
    by (rewrite <- plus_IZR, <- minus_IZR; f_equal; lia).
  rewrite E1 in C2. rewrite E2 in C1. lra.
Qed.

Lemma box_positive box n : (1 <= op_frac_buffer op * IZR box)%R -> box_of op box n -> 1 <= n.
Proof.
  intros H [_ K]. assert (T : 1 <= Ztrunc (op_frac_buffer op * IZR box)).
  { rewrite Ztrunc_floor by lra. apply Zfloor_lub. exact H. }
  lia.
Qed.

Lemma fill_kept ra dec rp dp box e o col row b s flag :
  (1 <= op_frac_buffer op * IZR box)%R -> files_agree w op e ->
  e_image_flags e = 0 -> make_object w op e = Ok o ->
  sky2image1 (so_wcs o) ra dec = Ok (col, row) ->
  compute_slice_bounds (op_frac_buffer op) box col row = Ok b ->
  ccd_contains_bounds (so_shape o) b (op_edge_buffer op) = true ->
  fill_object w op e o b rp dp = Ok (s, flag) ->
  kept_from w op ra dec rp dp box e (sw_wcs (so_wcs o)) (so_psf o) (so_shape o) s flag.
Proof.
  intros Hb Hfiles Hfl Ho Hpos Hbnd Hcon H.
  destruct (make_object_image w op e o Ho) as [Him Ew]; cbn [fofZ ROps] in Ew.
  destruct (bounds_box box col row b Hbnd) as (n & Sq & Bx & C1 & C2).
  pose proof (box_positive box n Hb Bx) as Hn.
  unfold fill_object in H. apply bind_ok in H as (pixels & Hp & H). apply bind_ok in H as (bmask & Hm & H).
  destruct (Hfiles _ _ _ _ _ Him Hp Hm) as (F1 & F2 & F3 & F4).
  apply bind_ok in H as ([sl bm] & Hs & H). apply bind_ok in H as ([x y] & Hxy & H).
  apply bind_ok in H as ([pf fl] & Hpf & H). apply Ok_inj in H. apply pair_equal_spec in H as [Es Ef].
  subst fl.
  destruct (proj1 (set_slice_spec (w_pow10 w) (w_normal w) (w_store w) pixels (op_tape_bumps op) (e_noise_seeds e)
              bmask b (so_shape o) (op_edge_buffer op) n F1 F2 F3 F4 Hn Sq Hcon) sl bm Hs)
    as (X1 & X2 & X3 & X4 & X5 & X6 & X7 & X8).
  apply C62_flag_of_set_psf in Hpf as [Hset Hflag].
  apply C54_stored_psf in Hset as (a & Ha & A1 & A2 & A3 & A4).
  destruct (C54_psf_images _ _ _ _ _ _ _ Ha) as (q & raw & Q1 & Q2 & Q3 & Q4 & Q5 & _).
  subst s. constructor; cbn [SliceInputs.sl_image_id SliceInputs.sl_box_size SliceInputs.sl_y_start
    SliceInputs.sl_x_start SliceInputs.sl_image SliceInputs.sl_weight SliceInputs.sl_bmask SliceInputs.sl_noises
    SliceInputs.sl_psf SliceInputs.sl_psf_x_start SliceInputs.sl_psf_y_start SliceInputs.sl_psf_box_size].
  - exact Hfl.
  - reflexivity.
  - rewrite X3. exact Bx.
  - rewrite X1, X2, X3. now apply (fits_iff op _ b n Sq Hn).
  - exists col, row. rewrite X1, X2, X3. split; [now apply located_iff|]. split; assumption.
  - exists pixels, bmask, bm. rewrite X1, X2, X3. cbv zeta.
    split; [exact Hp|]. split; [exact Hm|]. split; [exact X7|]. split; [exact X4|]. split; [exact X5|].
    split; [exact X6|exact X8].
  - exists x, y, q, raw. split; [now apply located_iff|]. split; [exact Q1|]. rewrite <- Ew. split; [exact Q2|].
    rewrite A1, A2. split; [exact Q3|]. split; [reflexivity|]. split; [symmetry; exact Q4|]. split; assumption.
  - destruct (op_piff_failure op) as [[mx g]|]; [|destruct (w_kind w (so_psf o)); exact Hflag].
    destruct (w_kind w (so_psf o)); try exact Hflag.
    destruct Hflag as (res & Hr & Hbad). apply bind_ok in Hr as (m & Hm' & Hr).
    exists m, res. split; [now apply tested_iff|]. split; assumption.
Qed.

Lemma examine_decides ra dec rp dp box e a :
  (1 <= op_frac_buffer op * IZR box)%R -> files_agree w op e ->
  examine w op ra dec rp dp box e = Ok a ->
  match a with
  | Some (s, flag) => exists W m shape, image_of w op e W m shape /\
      kept_from w op ra dec rp dp box e W m shape s flag
  | None => e_image_flags e <> 0 \/ (exists o, off_the_image w op ra dec e o) \/
      exists W m shape, image_of w op e W m shape /\ no_box_fits op ra dec box e W shape
  end.
Proof.
  intros Hb Hfiles H. unfold examine in H.
  destruct (Z.eqb_spec (e_image_flags e) 0) as [Hfl|Hfl]; cbn [negb] in H.
  2:{ apply Ok_inj in H. subst a. now left. }
  apply bind_ok in H as (o & Ho & H).
  destruct (se_contains_radec (w_radec_to_uv w) o ra dec) eqn:Hc; cbn [negb] in H.
  2:{ apply Ok_inj in H. subst a. right. left. exists o. split; assumption. }
  apply bind_ok in H as ([col row] & Hpos & H). apply bind_ok in H as (b & Hbnd & H).
  destruct (ccd_contains_bounds (so_shape o) b (op_edge_buffer op)) eqn:Hcon; cbn [negb] in H.
  - apply bind_ok in H as ([s flag] & Hs & H). apply Ok_inj in H. subst a.
    exists (sw_wcs (so_wcs o)), (so_psf o), (so_shape o).
    split; [apply (make_object_image w op e o Ho)|]. now apply (fill_kept ra dec rp dp box e o col row b).
  - apply Ok_inj in H. subst a. right. right.
    exists (sw_wcs (so_wcs o)), (so_psf o), (so_shape o).
    split; [apply (make_object_image w op e o Ho)|].
    destruct (bounds_box box col row b Hbnd) as (n & Sq & Bx & C1 & C2).
    exists col, row, n, (zcolmin b), (zrowmin b). split; [now apply located_iff|]. repeat (split; [assumption|]).
    rewrite <- (fits_iff op _ b n Sq (box_positive box n Hb Bx)), Hcon. discriminate.
Qed.

(** The position of a box that fits is unique. *)
Lemma box_unique box n n' : box_of op box n -> box_of op box n' -> n = n'.
Proof.
  intros [M N] [M' N']. set (t := Ztrunc (op_frac_buffer op * IZR box)) in *.
  destruct N as [->| ->], N' as [->| ->]; try reflexivity; exfalso;
    pose proof (Z.div_mod t 2); pose proof (Z.div_mod (t + 1) 2);
    pose proof (Z.mod_pos_bound t 2); pose proof (Z.mod_pos_bound (t + 1) 2); lia.
Qed.

Lemma centred_unique v s s' n : centred v s n -> centred v s' n -> s = s'.
Proof.
  unfold centred. intros H H'. assert (K : (-1 < IZR s - IZR s' < 1)%R) by lra.
  rewrite <- minus_IZR in K. destruct K as [K1 K2]. apply lt_IZR in K1, K2. lia.
Qed.

Lemma located_unique e W ra dec x y x' y' :
  located op e W ra dec x y -> located op e W ra dec x' y' -> x = x' /\ y = y'.
Proof.
  unfold located. intros H H'. rewrite H in H'. apply Ok_inj in H'.
  apply pair_equal_spec in H' as [H1 H2]. split; lra.
Qed.

(** A usable image is examined without trouble. *)
Lemma examine_usable ra dec rp dp box e W m shape :
  (1 <= op_frac_buffer op * IZR box)%R -> usable w op e W m shape ->
  exists a, examine w op ra dec rp dp box e = Ok a.
Proof.
  intros Hb U. unfold examine. destruct (e_image_flags e =? 0); cbn [negb]; [|eauto].
  destruct (us_image w op e W m shape U) as (I1 & I2 & I3). destruct shape as [nr nc].
  destruct (C74_construction_succeeds P (w_image_wcs w) (w_head_wcs w) (w_piff w) (w_psfex w) (w_shape w)
              (w_radec_to_uv w) (w_cosdeg w) (e_info e) (op_psf op) (op_wcs op) (IZR (e_offset e)) (op_color op)
              W m nr nc I1 I2 I3 (us_rows _ _ _ _ _ _ U) (us_cols _ _ _ _ _ _ U)
              (fun x y _ => us_sky _ _ _ _ _ _ U _ _)) as (o & Ho & Ew & Em & Esh).
  assert (Ho' : make_object w op e = Ok o) by exact Ho. rewrite Ho'. cbn [bind].
  destruct (se_contains_radec _ _ _ _); cbn [negb]; [|eauto].
  assert (Hsky : forall ra dec, exists x y, sky2image1 (so_wcs o) ra dec = Ok (x, y)).
  { intros r d. rewrite Ew, sky2image1_own. cbn [sw_wcs sw_offset sw_color].
    destruct (us_pixel _ _ _ _ _ _ U r d) as ([x y] & E). rewrite E. eauto. }
  destruct (Hsky ra dec) as (col & row & E). rewrite E. cbn [bind].
  destruct (slice_bounds_R (op_frac_buffer op) box col row) as (b & n & Eb & _).
  rewrite Eb. cbn [bind].
  destruct (ccd_contains_bounds (so_shape o) b (op_edge_buffer op)) eqn:Hcon; cbn [negb]; [|eauto].
  destruct (bounds_box box col row b Eb) as (n' & Sq & Bx & _).
  unfold fill_object.
  destruct (us_files _ _ _ _ _ _ U) as (pixels & bmask & Ep & Em' & F1 & F2 & F3 & F4 & Ht & Hz).
  rewrite Ep, Em'. cbn [bind]. rewrite Esh in Hcon.
  destruct (proj2 (set_slice_spec (w_pow10 w) (w_normal w) (w_store w) pixels (op_tape_bumps op) (e_noise_seeds e)
              bmask b (nr, nc) (op_edge_buffer op) n' F1 F2 F3 F4 (box_positive box n' Hb Bx) Sq Hcon) Ht)
    as (sl & bm & Es).
  { destruct Hz as [Hz|(r & c & Hin & Hz)]; [now left|right; exists r, c]. split; [exact Hin|].
    cbn. unfold Rleb. destruct (Rle_dec _ _); [lra|reflexivity]. }
  rewrite Es. cbn [bind]. destruct (Hsky rp dp) as (x & y & E2). rewrite E2. cbn [bind].
  rewrite Em.
  assert (Hpf : exists pf, set_psf (w_draw w m (so_wcs o)) (w_kind w m) (w_galsim_n w m) (e_offset e) x y = Ok pf).
  { destruct (C54_psf_images_exist (w_draw w m (so_wcs o)) (w_kind w m) (w_galsim_n w m) (e_offset e) x y
                (us_psf _ _ _ _ _ _ U)) as (a & Ha).
    { intros q _. rewrite Ew. exact (us_draw _ _ _ _ _ _ U q). }
    destruct (C54_bad_stamps_are_refused R ROps _ _ _ _ _ _ _ Ha) as (_ & _ & Odd).
    unfold set_psf. rewrite Ha. cbn [bind].
    rewrite stamp_bounds_R, Odd. cbn. eauto. }
  destruct Hpf as (pf & Hpf). unfold set_psf_flagged. rewrite Hpf.
  assert (Hfl : exists flag, match (match op_piff_failure op with Some (mx, _) => Some mx | None => None end), w_kind w m with
     | Some mx, Piff =>
         res <- (match op_piff_failure op with
                 | Some (_, g) => mt <- tested_model w e ;; w_sample w mt g (e_piff_seed e) | None => Ok [] end) ;;
         bad_piff_model res mx
     | _, _ => Ok false end = Ok flag).
  { destruct (op_piff_failure op) as [[mx g]|] eqn:Eo; [|eauto].
    destruct (w_kind w m) eqn:Ek; eauto.
    destruct (us_sample _ _ _ _ _ _ U mx g Eo Ek) as (mt & res & Hm & Er & Hne).
    apply tested_iff in Hm. rewrite Hm. cbn [bind]. rewrite Er. cbn [bind].
    destruct (C62_far_from_the_median_is_bad res mx _ Hne (PiffProofs.median_R res)) as (fl & Hfl & _). eauto. }
  destruct Hfl as (flag & Hfl). rewrite Hfl. cbn [bind]. eauto.
Qed.
End R.

(** The WCS, the PSF model and the shape of an image are determined. *)
Section Det.
Context {F P : Type}.
Lemma choose_wcs_det l1 l2 l3 (si : SeWcs.source (F := F) (P := P)) c W W' :
  wcs_from l1 l2 l3 si c W -> wcs_from l1 l2 l3 si c W' -> W = W'.
Proof. intros H H'. destruct H; inversion H'; subst; congruence. Qed.

Lemma choose_psf_det l1 l2 (si : SeWcs.source (F := F) (P := P)) c m m' :
  psf_from l1 l2 si c m -> psf_from l1 l2 si c m' -> m = m'.
Proof. intros H H'. destruct H; inversion H'; subst; congruence. Qed.

Lemma get_shape_det l1 (si : SeWcs.source (F := F) (P := P)) sh sh' :
  shape_from l1 si sh -> shape_from l1 si sh' -> sh = sh'.
Proof. intros H H'. destruct H; inversion H'; subst; congruence. Qed.
End Det.
