(** C81: which single-epoch images contribute to a slice. *)
From Coq Require Import ZArith List Bool String Reals Lia Lra.
From Coq Require Import List.
From Flocq Require Import Raux.
From Verif Require Import Lib.Base Lib.Floats Model.Affine Model.Noise Model.SeWcs Model.TapeBumps Model.SeImage
  Model.PsfImage Model.Piff Model.SliceInputs Model.Epoch
  Spec.SeImageSpec Spec.SeWcsSpec Spec.PsfSpec Spec.SliceInputsSpec Spec.EpochSpec
  Proofs.SliceInputsProofs Proofs.SeWcsProofs Proofs.AffineProofs Proofs.EpochProofs
  Props.PropSeWcs Props.PropSliceInputs.
Import ListNotations.
Open Scope list_scope.
Open Scope Z_scope.

(** C81: the selection modelled with the answers of the images (C37-C40, C71, C72)
    starts from just these slices. *)
Theorem C81_answers_of_the_images :
  forall (F P : Type) (FO : FloatOps F) (w : world F P) (op : options F P) ra dec ra_psf dec_psf box_size l,
  rough_cut (map (answers w op ra dec ra_psf dec_psf box_size) l)
  = find_slices w op ra dec ra_psf dec_psf box_size l.
Proof. intros. apply rough_cut_answers. Qed.

(** C81: the images are split in those that are kept, in their order, and those
    that have flags, do not have the position within their rough bounds or cannot
    hold the box. What is kept is described by [kept_from]. *)
Theorem C81_kept_images :
  forall (P : Type) (w : world R P) (op : options R P) ra dec ra_psf dec_psf box_size l kept,
  (1 <= op_frac_buffer op * IZR box_size)%R ->
  (forall e, In e l -> files_agree w op e) ->
  find_slices w op ra dec ra_psf dec_psf box_size l = Ok kept ->
  exists marks, length marks = length l /\
  Forall2 (fun e sp => exists W m shape, image_of w op e W m shape /\
             kept_from w op ra dec ra_psf dec_psf box_size e W m shape (fst sp) (snd sp))
    (pick true marks l) kept /\
  Forall (fun e => e_image_flags e <> 0 \/ (exists o, off_the_image w op ra dec e o) \/
            exists W m shape, image_of w op e W m shape /\ no_box_fits op ra dec box_size e W shape)
    (pick false marks l).
Proof.
  intros P w op ra dec rp dp box l kept Hb Hfiles H.
  apply find_slices_inv in H as (ms & Hm & ->).
  exists (map (fun a : option (SliceInputs.se_slice (F := R) * bool) => match a with Some _ => true | None => false end) ms).
  induction Hm as [|e a l ms He Hm IH]; [split; [reflexivity|split; constructor]|].
  destruct IH as (I1 & I2 & I3); [intros e' He'; apply Hfiles; now right|].
  apply (examine_decides w op ra dec rp dp box e a Hb (Hfiles e (or_introl eq_refl))) in He.
  split; [cbn [map length]; lia|].
  destruct a as [[s flag]|]; cbn [map]; unfold pick; cbn [combine filter fst Bool.eqb map snd flat_map app].
  - split; [|exact I3]. constructor; [exact He|exact I2].
  - split; [exact I2|]. constructor; [exact He|exact I3].
Qed.

(** C81: with an affine WCS the rough bounds lose nothing: an image without flags
    on which the box fits is kept. *)
Theorem C81_fitting_images_are_kept :
  forall (P : Type) (w : world R P) (op : options R P) ra dec ra_psf dec_psf box_size l kept
         e W m shape a b c d px0 py0 x y n x0 y0,
  (2 <= op_frac_buffer op * IZR box_size)%R ->
  (forall e, In e l -> files_agree w op e) ->
  find_slices w op ra dec ra_psf dec_psf box_size l = Ok kept ->
  In e l -> e_image_flags e = 0 -> image_of w op e (AffineW W) m shape ->
  affine_wcs a b c d px0 py0 = Ok W ->
  located op e (AffineW W) ra dec x y -> box_of op box_size n -> centred x x0 n -> centred y y0 n ->
  box_fits op shape y0 x0 n ->
  exists s flag, In (s, flag) kept /\
    kept_from w op ra dec ra_psf dec_psf box_size e (AffineW W) m shape s flag.
Proof.
  intros P w op ra dec rp dp box l kept e W m shape a b c d px0 py0 x y n x0 y0
    Hb Hfiles H Hin Hfl Him HW Hloc Hbox Cx Cy Hfit.
  apply find_slices_inv in H as (ms & Hm & ->).
  assert (He : exists a, examine w op ra dec rp dp box e = Ok a /\ In a ms).
  { clear -Hm Hin. induction Hm as [|e' a l ms He Hm IH]; [destruct Hin|].
    destruct Hin as [->|Hin]; [exists a; split; [exact He|now left]|].
    destruct (IH Hin) as (a' & E & I). exists a'. split; [exact E|now right]. }
  destruct He as (r & He & Hr).
  assert (Hn : 2 <= n).
  { destruct Hbox as [_ K]. assert (T : 2 <= Ztrunc (op_frac_buffer op * IZR box)).
    { rewrite Ztrunc_floor by lra. apply Zfloor_lub. exact Hb. }
    lia. }
  pose proof He as D. apply (examine_decides w op ra dec rp dp box e r ltac:(lra) (Hfiles e Hin)) in D.
  (* the image is determined *)
  assert (Hdet : forall W' m' shape', image_of w op e W' m' shape' -> W' = AffineW W /\ m' = m /\ shape' = shape).
  { intros W' m' shape' (A1 & A2 & A3). destruct Him as (B1 & B2 & B3).
    split; [eapply choose_wcs_det; eassumption|]. split; [eapply choose_psf_det; eassumption|].
    eapply get_shape_det; eassumption. }
  destruct r as [[s flag]|].
  - destruct D as (W' & m' & shape' & Him' & K). destruct (Hdet _ _ _ Him') as (-> & -> & ->).
    exists s, flag. split; [|exact K]. apply in_flat_map. eexists. split; [exact Hr|]. now left.
  - exfalso. destruct D as [D|[(o & Ho & Hc)|(W' & m' & shape' & Him' & D)]].
    + contradiction.
    + destruct (make_object_image w op e o Ho) as [Hi Es]. destruct (Hdet _ _ _ Hi) as (E1 & E2 & E3).
      assert (Hnear : near_image (fst (so_shape o)) (snd (so_shape o)) 0 x y).
      { rewrite E3. unfold near_image. destruct Hfit as (F1 & F2 & F3 & F4).
        unfold centred in Cx, Cy.
        assert (N : (2 <= IZR n)%R) by (apply (IZR_le 2); exact Hn).
        assert (X0 : (0 <= IZR x0)%R) by (apply (IZR_le 0); lia).
        assert (Y0 : (0 <= IZR y0)%R) by (apply (IZR_le 0); lia).
        assert (X1 : (IZR x0 + IZR n <= IZR (snd shape))%R) by (rewrite <- plus_IZR; apply IZR_le; lia).
        assert (Y1 : (IZR y0 + IZR n <= IZR (fst shape))%R) by (rewrite <- plus_IZR; apply IZR_le; lia).
        lra. }
      assert (Hsh : (1 <= fst (so_shape o)) /\ (1 <= snd (so_shape o))).
      { rewrite E3. destruct Hfit as (F1 & F2 & F3 & F4). lia. }
      assert (Hsky : se_image2sky (so_wcs o) (Scalar x) (Scalar y) = Ok (Scalar ra, Scalar dec)).
      { rewrite Es, E1, C73_position_to_sky. cbn [own_sky].
        unfold located in Hloc. cbn [own_image] in Hloc. apply Ok_inj in Hloc.
        pose proof (C73_affine_undoes a b c d px0 py0 W (op_color op) HW) as [_ U].
        specialize (U ra dec (sky2image W ra dec) eq_refl). cbn [own_sky] in U. apply Ok_inj in U.
        rewrite Hloc in U. cbn [fst snd] in U. cbn [fadd fofZ ROps]. rewrite U. reflexivity. }
      assert (K : se_contains_radec (w_radec_to_uv w) o ra dec = true).
      { eapply (C74_own_positions_contained P _ _ _ _ _ _ _ _ _ _ _ _ o a b c d px0 py0 W 0%R Ho HW);
          [rewrite Es, E1; reflexivity|apply Hsh|apply Hsh|lra|lra|lra|exact Hnear|exact Hsky]. }
      congruence.
    + destruct (Hdet _ _ _ Him') as (-> & -> & ->).
      destruct D as (x' & y' & n' & x0' & y0' & L & B & C1 & C2 & D). apply D.
      destruct (located_unique op e (AffineW W) ra dec x y x' y' Hloc L) as [<- <-].
      rewrite <- (box_unique op box n n' Hbox B) in *.
      rewrite <- (centred_unique x x0 x0' n Cx C1), <- (centred_unique y y0 y0' n Cy C2). exact Hfit.
Qed.

(** C81: all slices that are kept have complete arrays of one and the same size. *)
Theorem C81_kept_slices_are_complete :
  forall (P : Type) (w : world R P) (op : options R P) ra dec ra_psf dec_psf box_size l kept n,
  (1 <= op_frac_buffer op * IZR box_size)%R ->
  (forall e, In e l -> files_agree w op e) ->
  find_slices w op ra dec ra_psf dec_psf box_size l = Ok kept ->
  box_of op box_size n ->
  forall s flag, In (s, flag) kept -> SliceInputs.sl_box_size s = n /\ SliceInputsSpec.shaped n n s.
Proof.
  intros P w op ra dec rp dp box l kept n Hb Hfiles H Hn s flag Hin.
  destruct (C81_kept_images P w op ra dec rp dp box l kept Hb Hfiles H) as (marks & _ & K & _).
  assert (K' : exists e W m shape, kept_from w op ra dec rp dp box e W m shape s flag).
  { clear -K Hin. induction K as [|e sp l0 ks (W & m & shape & _ & K1) K IH]; [destruct Hin|].
    destruct Hin as [->|Hin]; [eauto|exact (IH Hin)]. }
  destruct K' as (e & W & m & shape & K'). destruct K' as [_ _ B _ _ Px _ _].
  assert (En : SliceInputs.sl_box_size s = n) by (eapply box_unique; eassumption). split; [exact En|].
  destruct Px as (pixels & bmask & bm & _ & _ & _ & (I1 & I2 & _) & (W1 & W2 & _) & (M1 & M2 & _) & N).
  pose proof (box_positive op box n Hb Hn). rewrite En in *. unfold SliceInputsSpec.shaped, shape_is.
  repeat (split; [first [assumption|split; assumption]|]).
  clear -N. induction N as [|a b l l' (nse & _ & N1 & N2 & _) N IH]; constructor; [split; assumption|exact IH].
Qed.

(** C81: images that can be used do not stop the selection. *)
Theorem C81_selection_succeeds :
  forall (P : Type) (w : world R P) (op : options R P) ra dec ra_psf dec_psf box_size l,
  (1 <= op_frac_buffer op * IZR box_size)%R ->
  (forall e, In e l -> e_image_flags e = 0 -> exists W m shape, usable w op e W m shape) ->
  exists kept, find_slices w op ra dec ra_psf dec_psf box_size l = Ok kept.
Proof.
  intros P w op ra dec rp dp box l Hb. induction l as [|e l IH]; intros Hu; [exists []; reflexivity|].
  destruct IH as (kept & Hk); [intros e' He'; apply Hu; now right|]. cbn [find_slices]. rewrite Hk.
  assert (Hx : exists a, examine w op ra dec rp dp box e = Ok a).
  { destruct (Z.eq_dec (e_image_flags e) 0) as [E|E]; [|exists None; now apply examine_flagged].
    destruct (Hu e (or_introl eq_refl) E) as (W & m & shape & U).
    exact (examine_usable w op ra dec rp dp box e W m shape Hb U). }
  destruct Hx as (a & Ha). rewrite Ha. cbn [bind]. eauto.
Qed.

(** C81: and then the images can be judged, interpolated and weighted (C37). *)
Theorem C81_inputs_can_be_built :
  forall (P RNG : Type) (w : world R P) (op : options R P) ra dec ra_psf dec_psf box_size l
         rotate (normal : RNG -> nat -> R -> list R * RNG) normal2 interpolator median measure_fwhm outliers
         (cf : config) map_gaia (rng : RNG),
  (2 <= op_frac_buffer op * IZR box_size)%R ->
  (forall e, In e l -> e_image_flags e = 0 -> exists W m shape, usable w op e W m shape) ->
  (forall r n x, length (fst (normal r n x)) = n) ->
  (forall ps vs, exists f, interpolator ps vs = Ok f) ->
  cf_coadding_weight cf = "noise"%string \/ cf_coadding_weight cf = "noise-fwhm"%string ->
  (cf_max_masked_fraction cf <= 1)%R ->
  (forall f s nr nc, map_gaia = Some f -> SliceInputsSpec.shaped nr nc s ->
     cut_out_of (map (answers w op ra dec ra_psf dec_psf box_size) l) s -> exists g, f s = Ok g /\ shape_is nr nc g) ->
  exists out rng',
    build_slice_inputs rotate normal normal2 interpolator median measure_fwhm outliers cf map_gaia
      (map (answers w op ra dec ra_psf dec_psf box_size) l) rng = Ok (out, rng').
Proof.
  intros P RNG w op ra dec rp dp box l rotate normal normal2 interp median fwhm outl cf gaia rng
    Hb Hu H1 H2 H3 H4 H5.
  apply C37_selection_does_not_fail; try assumption.
  - cbn. unfold Rleb, fone. cbn. destruct (Rle_dec _ _); [reflexivity|contradiction].
  - intros n Hn. cbn. unfold Rleb. destruct (Rle_dec _ _) as [|K]; [reflexivity|]. exfalso. apply K.
    assert (N : (0 < IZR n)%R) by (apply (IZR_lt 0); exact Hn). unfold Rdiv. rewrite Rinv_r by lra. exact H4.
  - intros src Hin Hc. apply in_map_iff in Hin as (e & <- & Hin).
    destruct (Z.eq_dec (e_image_flags e) 0) as [E|E].
    2:{ exfalso. unfold answers in Hc. rewrite (examine_flagged w op ra dec rp dp box e E) in Hc.
        unfold candidate in Hc. cbn in Hc. rewrite andb_false_r in Hc. discriminate. }
    destruct (Hu e Hin E) as (W & m & shape & U).
    destruct (examine_usable w op ra dec rp dp box e W m shape ltac:(lra) U) as (a & Ha).
    unfold answers in *. rewrite Ha in *. destruct a as [[s flag]|].
    2:{ exfalso. unfold candidate in Hc. cbn in Hc. rewrite andb_false_r in Hc. discriminate. }
    assert (Hs : find_slices w op ra dec rp dp box [e] = Ok [(s, flag)])
      by (cbn [find_slices]; rewrite Ha; reflexivity).
    destruct (SeImageProofs.slice_bounds_R (op_frac_buffer op) box 0 0) as (b & n & _ & _ & N1 & N2 & _).
    assert (Hfa : forall e', In e' [e] -> files_agree w op e').
    { intros e' [<-|[]] W' m' shape' pixels bmask (A1 & A2 & A3) Hp Hm.
      destruct (us_files _ _ _ _ _ _ U) as (pixels' & bmask' & Ep & Em & F1 & F2 & F3 & F4 & _).
      destruct (us_image _ _ _ _ _ _ U) as (_ & _ & B3).
      rewrite Hp in Ep. rewrite Hm in Em. apply Ok_inj in Ep, Em. subst pixels' bmask'.
      rewrite (get_shape_det _ _ _ _ A3 B3). auto. }
    destruct (C81_kept_slices_are_complete P w op ra dec rp dp box [e] [(s, flag)] n ltac:(lra) Hfa Hs
                (conj N1 N2) s flag (or_introl eq_refl)) as [En Sh].
    assert (T : 2 <= Ztrunc (op_frac_buffer op * IZR box)).
    { rewrite Ztrunc_floor by lra. apply Zfloor_lub. exact Hb. }
    exists s, n, n. cbn [src_slice]. split; [reflexivity|]. split; [exact Sh|].
    split; [lia|]. split; [lia|]. now right.
Qed.

(** C81: an image has no influence on whether others are kept. *)
Theorem C81_images_are_examined_one_by_one :
  forall (F P : Type) (FO : FloatOps F) (w : world F P) (op : options F P) ra dec ra_psf dec_psf box_size l1 l2,
  find_slices w op ra dec ra_psf dec_psf box_size (l1 ++ l2) =
  (a <- find_slices w op ra dec ra_psf dec_psf box_size l1 ;;
   b <- find_slices w op ra dec ra_psf dec_psf box_size l2 ;; Ok (a ++ b)).
Proof. intros. apply find_slices_app. Qed.

(** C81: nothing but its flags matters of an image with flags: it may have no WCS,
    no PSF model and no files. *)
Theorem C81_flagged_images_are_not_touched :
  forall (F P : Type) (FO : FloatOps F) (w : world F P) (op : options F P) ra dec ra_psf dec_psf box_size l1 l2 e,
  e_image_flags e <> 0 ->
  find_slices w op ra dec ra_psf dec_psf box_size (l1 ++ e :: l2) =
  find_slices w op ra dec ra_psf dec_psf box_size (l1 ++ l2).
Proof.
  intros F P FO w op ra dec rp dp box l1 l2 e H. rewrite !find_slices_app. cbn [find_slices].
  rewrite (examine_flagged w op ra dec rp dp box e H). cbn [bind].
  destruct (find_slices _ _ _ _ _ _ _ l1); [cbn [bind]|reflexivity].
  destruct (find_slices _ _ _ _ _ _ _ l2); reflexivity.
Qed.

(** C81: with PSF models from piff files the model that is tested is the one that is
    drawn. *)
Theorem C81_tested_model_is_drawn :
  forall (P : Type) (w : world R P) (op : options R P) e W m shape m',
  op_psf op = Name "piff" -> image_of w op e W m shape -> piff_model w e m' -> m' = m.
Proof.
  intros P w op e W m shape m' Eo (_ & H & _) (p & k & W' & E1 & E2 & E3).
  rewrite Eo in H. inversion H; subst; congruence.
Qed.

(** ** Concrete case: three images of 9 x 9 pixels; one has flags and no files at
    all, one is far away. *)
Definition ex_wcs (shift : R) : affine R := mk_affine 1%R 0%R 0%R 1%R shift 0%R 1%R.
Definition ex_info (shift : R) : SeWcs.source (F := R) (P := nat) :=
  SeWcs.mksrc None None None None None None (Some (ex_wcs shift)) (Some 5%nat) (Some (9, 9)).
Definition ex_pixels : SeImage.source (F := R) :=
  SeImage.mksrc 7 30%R (full 9 9 3%R) (full 9 9 1%R) (full 9 9 2%R).
Definition ex_entry (id flags : Z) (shift : R) : entry R nat :=
  mkentry id flags 1 (ex_info shift) (Ok ex_pixels) (Ok (full 9 9 0)) [11; 12] 0.
Definition ex_flagged : entry R nat :=
  mkentry 2 4 1 (SeWcs.mksrc None None None None None None None None None) (Raise IOError) (Raise IOError) [] 0.
Definition ex_world : world R nat :=
  mkworld (fun _ _ => Raise IOError) (fun _ _ _ => Raise IOError) (fun _ _ => Raise IOError)
    (fun _ => Raise IOError) (fun _ _ => Raise IOError) (fun _ _ _ _ => (0, 0)%R) (fun _ => 1%R)
    (fun _ => 1%R) (fun _ _ => 0%R) (fun x => x) (fun _ => PsfImage.Galsim) (fun _ => 1)
    (fun _ _ _ => Ok (full 3 3 1%R)) (fun _ _ _ => Ok []).
Definition ex_options : options R nat :=
  mkoptions (Name "galsim") (Name "affine") 0%R 1%R 1 true None.

Lemma ex_usable id shift : usable ex_world ex_options (ex_entry id 0 shift) (AffineW (ex_wcs shift)) 5%nat (9, 9).
Proof.
  constructor; cbn [fst snd]; try lia.
  - split; [constructor; reflexivity|]. split; constructor; reflexivity.
  - intros x y. cbn. eauto.
  - intros x y. cbn. eauto.
  - exists ex_pixels, (full 9 9 0). repeat (split; [first [reflexivity|split; reflexivity]|]).
    split; [cbn; lia|]. right. exists 0, 0. split; [split; cbn; lia|cbn; lra].
  - discriminate.
  - intros q. eexists. split; [reflexivity|]. split; reflexivity.
  - discriminate.
Qed.

(** With a piff model that is handed over as an object it is not: the model of the
    file is tested, and without a file the image stops the run. *)
Theorem C81_tested_model_is_drawn_refuted :
  exists (w : world R nat) (op : options R nat) e W m shape,
    image_of w op e W m shape /\ w_kind w m = Piff /\ (exists mx g, op_piff_failure op = Some (mx, g)) /\
    (exists m', piff_model w e m' /\ m' <> m) /\
    exists e', image_of w op e' W m shape /\ e_image_flags e' = 0 /\ e_pixels e' = e_pixels e /\
      e_bmask e' = e_bmask e /\
      forall o b ra dec s flag, make_object w op e' = Ok o -> fill_object w op e' o b ra dec <> Ok (s, flag).
Proof.
  set (w := mkworld (fun _ _ => Raise IOError) (fun _ _ _ => Raise IOError)
    (fun _ _ => Ok (7%nat, AffineW (ex_wcs 1%R)))
    (fun _ => Raise IOError) (fun _ _ => Raise IOError) (fun _ _ _ _ => (0, 0)%R) (fun _ => 1%R)
    (fun _ => 1%R) (fun _ _ => 0%R) (fun x => x) (fun _ : nat => Piff) (fun _ => 1)
    (fun _ _ _ => Ok (full 3 3 1%R)) (fun _ _ _ => Ok [1%R])).
  set (op := mkoptions (Object 5%nat) (Name "affine") 0%R 1%R 1 true (Some (1%R, 128))).
  set (inf := fun p k => SeWcs.mksrc (P := nat) None None None p k None (Some (ex_wcs 1%R)) None (Some (9, 9))).
  set (en := fun i : SeWcs.source (F := R) (P := nat) => mkentry 1 0 1 i (Ok ex_pixels) (Ok (full 9 9 0)) [11] 0).
  exists w, op, (en (inf (Some "f"%string) (Some 3))), (AffineW (ex_wcs 1%R)), 5%nat, (9, 9).
  split; [split; [constructor; reflexivity|split; constructor; reflexivity]|].
  split; [reflexivity|]. split; [exists 1%R, 128; reflexivity|].
  split; [exists 7%nat; split; [|discriminate]; exists "f"%string, 3, (AffineW (ex_wcs 1%R)); repeat split|].
  exists (en (inf None None)).
  split; [split; [constructor; reflexivity|split; constructor; reflexivity]|].
  split; [reflexivity|]. split; [reflexivity|]. split; [reflexivity|].
  intros o b ra dec s flag Ho H. unfold fill_object in H.
  apply bind_ok in H as (? & _ & H). apply bind_ok in H as (? & _ & H). apply bind_ok in H as ([? ?] & _ & H).
  apply bind_ok in H as ([? ?] & _ & H). apply bind_ok in H as ([? ?] & H & _).
  apply make_object_image in Ho as [(_ & Hm & _) _]. inversion Hm; subst.
  unfold set_psf_flagged in H. cbn [op_piff_failure op w_kind w] in H.
  apply bind_ok in H as (? & H & _). apply bind_ok in H as (? & H & _). discriminate H.
Qed.

Example C81_example :
  exists kept s flag,
    find_slices ex_world ex_options 4%R 4%R 4%R 4%R 3 [ex_entry 1 0 1%R; ex_flagged; ex_entry 3 0 (-1000)%R] = Ok kept /\
    In (s, flag) kept /\ SliceInputs.sl_image_id s = 1 /\ flag = false /\
    kept_from ex_world ex_options 4%R 4%R 4%R 4%R 3 (ex_entry 1 0 1%R) (AffineW (ex_wcs 1%R)) 5%nat (9, 9) s flag.
Proof.
  destruct (C81_selection_succeeds nat ex_world ex_options 4%R 4%R 4%R 4%R 3
              [ex_entry 1 0 1%R; ex_flagged; ex_entry 3 0 (-1000)%R]) as (kept & Hk).
  - cbn. lra.
  - intros e [<-|[<-|[<-|[]]]] E; [eauto using ex_usable|discriminate|eauto using ex_usable].
  - destruct (C81_fitting_images_are_kept nat ex_world ex_options 4%R 4%R 4%R 4%R 3 [ex_entry 1 0 1%R; ex_flagged; ex_entry 3 0 (-1000)%R] kept
                (ex_entry 1 0 1%R) (ex_wcs 1%R) 5%nat (9, 9) 1%R 0%R 0%R 1%R 1%R 0%R 4%R 3%R 3 3 2) as (s & flag & Hin & K);
      [cbn; lra| |exact Hk|now left|reflexivity|apply (us_image _ _ _ _ _ _ (ex_usable 1 1%R))| | | | | | |].
    + intros e Hin W m shape pixels bmask (_ & _ & Hs) Hp Hm.
      destruct Hin as [<-|[<-|[<-|[]]]]; cbn in Hp, Hm; try discriminate;
        apply Ok_inj in Hp, Hm; subst pixels bmask; inversion Hs; subst; cbn in *;
        try discriminate; injection H as <-; repeat split.
    + rewrite affine_wcs_cases. destruct (Req_EM_T _ _); [lra|]. unfold ex_wcs. do 2 f_equal. lra.
    + unfold located. cbn [own_image ex_entry e_offset]. unfold sky2image, ex_wcs. cbn. do 2 f_equal; field.
    + split; [reflexivity|left]. cbn. rewrite Rmult_1_l. symmetry. apply Ztrunc_IZR.
    + unfold centred. cbn. lra.
    + unfold centred. cbn. lra.
    + unfold box_fits. cbn. lia.
    + exists kept, s, flag. split; [exact Hk|]. split; [exact Hin|].
      split; [apply (kf_id _ _ _ _ _ _ _ _ _ _ _ _ _ K)|]. split; [exact (kf_flag _ _ _ _ _ _ _ _ _ _ _ _ _ K)|exact K].
Qed.

Print Assumptions C81_answers_of_the_images.
Print Assumptions C81_kept_images.
Print Assumptions C81_fitting_images_are_kept.
Print Assumptions C81_kept_slices_are_complete.
Print Assumptions C81_selection_succeeds.
Print Assumptions C81_inputs_can_be_built.
Print Assumptions C81_images_are_examined_one_by_one.
Print Assumptions C81_flagged_images_are_not_touched.
Print Assumptions C81_tested_model_is_drawn.
Print Assumptions C81_tested_model_is_drawn_refuted.
