(** Proofs about the results of a slice and the file as a whole. *)
From Coq Require Import ZArith List Bool String Lia Permutation Reals Lra.
From Coq Require Import List.
From Verif Require Import Lib.Base Lib.PyStr Lib.Floats Model.SliceRange Model.Jobs Model.Gaia
  Model.ObjectData Model.PsfImage Model.SliceInputs Model.Coadd Model.Writer Model.Sched Model.SingleSlice
  Spec.CoaddSpec Spec.WriterSpec Spec.RunSpec Spec.SingleSliceSpec
  Proofs.BaseFacts Proofs.SliceInputsProofs Proofs.CoaddProofs Proofs.ObjectDataProofs.
Import ListNotations.
Open Scope list_scope.
Open Scope Z_scope.

Section S.
Context {F : Type} {FO : FloatOps F} {RNG : Type}.
Variable ext : @externals F RNG.
Notation pixel := (@pixel F).
Notation E := (list (@epoch_row F)).

Lemma pynth_nonneg {A} (l : list A) i x : 0 <= i -> pynth l i = Ok x -> nth_error l (Z.to_nat i) = Some x.
Proof.
  intros Hi H. unfold pynth, pyindex in H.
  destruct (Z.leb_spec 0 i); [|lia]. cbn [andb] in H.
  destruct (i <? Z.of_nat (Datatypes.length l)) eqn:B.
  2: { destruct (Z.ltb_spec i 0); [lia|discriminate]. }
  destruct (nth_error l (Z.to_nat i)); [apply Ok_inj in H; congruence|discriminate].
Qed.

Lemma pynth_get {A} (l : list A) i x : 0 <= i -> nth_error l (Z.to_nat i) = Some x -> pynth l i = Ok x.
Proof.
  intros Hi H. assert (Hl : (Z.to_nat i < length l)%nat) by (apply nth_error_Some; congruence).
  unfold pynth, pyindex. destruct (Z.leb_spec 0 i); [|lia].
  destruct (Z.ltb_spec i (Z.of_nat (length l))); [|lia]. cbn [andb]. rewrite H. reflexivity.
Qed.

Lemma slice_inv sc cw ti objs n_extra seeds i sd (r : @results F pixel E) : 0 <= i ->
  coadd_single_slice ext sc cw ti objs n_extra seeds (i, sd) = Ok r ->
  exists ob kcol krow ra_psf dec_psf mask inputs,
    nth_error objs (Z.to_nat i) = Some ob /\ psf_pixel ext ob kcol krow /\
    x_image2sky ext (fofZ kcol) (fofZ krow) = Ok (ra_psf, dec_psf) /\
    (exists ih, let half := fdiv (fofZ (ob_psf_box_size ob - 1)) (fofZ 2) in
       ftrunc half = Some ih /\ feqb (fofZ ih) half = true) /\
    star_mask ext sc ti ob = Ok mask /\
    selected ext sc cw mask seeds sd ob ra_psf dec_psf inputs /\
    r_i pixel E r = i /\ r_weights pixel E r = si_weights inputs /\
    r_epochs pixel E r = make_epochs_info (ob_id ob) (si_weights inputs) (si_slices inputs)
                           (si_not_used inputs) (si_flags inputs) /\
    (si_weights inputs <> [] -> exists shape co w datas,
       ti_image_shape ti = Some shape /\
       coadd_slice_inputs
          (let half := fdiv (fofZ (ob_psf_box_size ob - 1)) (fofZ 2) in
           x_resample ext (ob_orig_start_row ob) (ob_orig_start_col ob) (ob_box_size ob)
             (fsub (fofZ (krow - ti_position_offset ti)) half)
             (fsub (fofZ (kcol - ti_position_offset ti)) half) (ob_psf_box_size ob) shape)
          (ob_box_size ob) (ob_psf_box_size ob) (si_slices inputs) (si_weights inputs)
          (Z.to_nat n_extra) = Ok (co, w, datas) /\
       r = mk_results pixel E i (make_epochs_info (ob_id ob) (si_weights inputs) (si_slices inputs)
                           (si_not_used inputs) (si_flags inputs)) (si_weights inputs)
            (imap PF (co_image co)) (imap PI (co_bmask co)) (imap PI (co_ormask co))
            (map (imap PF) (co_noises co)) (imap PF w) (imap PF (co_mfrac co))
            (imap PF (co_psf co)) (x_measure_fwhm ext (co_psf co))).
Proof.
  intros Hi H. unfold coadd_single_slice in H.
  apply bind_ok in H as (ob & Eo & H). apply (pynth_nonneg _ _ _ Hi) in Eo.
  apply bind_ok in H as ([col row] & Es & H).
  apply bind_ok in H as ([[kcol krow] [psr psc]] & El & H).
  apply bind_ok in H as ([ra_psf dec_psf] & Ei & H).
  apply bind_ok in H as (mask & Em & H).
  apply bind_ok in H as ([inputs rng'] & Eb & H). cbv zeta in H.
  exists ob, kcol, krow, ra_psf, dec_psf, mask, inputs.
  unfold build_coadd_psf_layout in El.
  destruct (ffloor (fadd col fhalf)) as [kc|] eqn:E1; [|discriminate].
  destruct (ffloor (fadd row fhalf)) as [kr|] eqn:E2; [|discriminate].
  cbv zeta in El. destruct (ftrunc (fdiv (fofZ (ob_psf_box_size ob - 1)) (fofZ 2))) as [ih|] eqn:E3; [|discriminate].
  destruct (feqb (fofZ ih) (fdiv (fofZ (ob_psf_box_size ob - 1)) (fofZ 2))) eqn:E4; cbn [negb] in El; [|discriminate].
  assert (K : kc = kcol /\ kr = krow /\
     fsub (fofZ (kr - ti_position_offset ti)) (fdiv (fofZ (ob_psf_box_size ob - 1)) (fofZ 2)) = psr /\
     fsub (fofZ (kc - ti_position_offset ti)) (fdiv (fofZ (ob_psf_box_size ob - 1)) (fofZ 2)) = psc).
  { apply Ok_inj in El. apply pair_equal_spec in El as [A B]. apply pair_equal_spec in A as [A1 A2].
    apply pair_equal_spec in B as [B1 B2]. auto. }
  destruct K as (-> & -> & <- & <-).
  split; [exact Eo|]. split; [exists col, row; auto|]. split; [exact Ei|].
  split; [exists ih; split; assumption|]. split; [exact Em|].
  split. { exists rng'. destruct mask; exact Eb. }
  destruct (si_weights inputs) as [|w0 ws] eqn:Ew.
  - apply Ok_inj in H. subst r. cbn [r_i r_weights r_epochs].
    split; [reflexivity|]. split; [reflexivity|]. split; [reflexivity|]. intros X; exfalso; apply X; reflexivity.
  - apply bind_ok in H as (shape & Esh & H).
    apply bind_ok in H as ([[co w] datas] & Ec & H). apply Ok_inj in H. subst r.
    cbn [r_i r_weights r_epochs]. split; [reflexivity|]. split; [reflexivity|]. split; [reflexivity|].
    intros _. exists shape, co, w, datas. split.
    { destruct (ti_image_shape ti); [congruence|discriminate]. }
    split; [exact Ec|reflexivity].
Qed.

(** Every object has the sizes it was made with. *)
Lemma build_sizes i2s jac central buffer width psf_box offset objs :
  build_object_data i2s jac central buffer width psf_box offset = Ok objs ->
  forall k (ob : @object F), nth_error objs k = Some ob ->
  ob_id ob = Z.of_nat k /\ ob_box_size ob = central + 2 * buffer /\ ob_psf_box_size ob = psf_box.
Proof.
  intros H. unfold build_object_data in H. apply bind_ok in H as ([[[rows cols] sr] scs] & _ & H).
  cbv zeta in H. revert H. generalize (zip4 rows cols sr scs) as locs. intros locs.
  assert (G : forall idx locs objs,
    fill_objects i2s jac idx (central + 2 * buffer) psf_box buffer
      (fdiv (fofZ (central - 1)) (fofZ 2)) (fdiv (fofZ (psf_box - 1)) (fofZ 2)) offset locs = Ok objs ->
    forall k (ob : @object F), nth_error objs k = Some ob ->
    ob_id ob = idx + Z.of_nat k /\ ob_box_size ob = central + 2 * buffer /\ ob_psf_box_size ob = psf_box).
  { clear. intros idx locs. revert idx. induction locs as [|[[[a b] c] d] locs IH]; intros idx objs H k ob Hk;
      cbn [fill_objects] in H.
    - apply Ok_inj in H. subst objs. destruct k; discriminate.
    - cbv zeta in H. apply bind_ok in H as ([ra dec] & _ & H). apply bind_ok in H as ([[[j0 j1] j2] j3] & _ & H).
      apply bind_ok in H as (rest & Er & H). apply Ok_inj in H. subst objs. destruct k as [|k].
      + cbn [nth_error] in Hk. injection Hk as <-. cbn [ob_id ob_box_size ob_psf_box_size]. repeat split. lia.
      + cbn [nth_error] in Hk. destruct (IH (idx + 1) rest Er k ob Hk) as (A & B & C).
        split; [rewrite A; lia|]. split; assumption. }
  intros H k ob Hk. apply (G 0 locs objs H k ob Hk).
Qed.

Lemma slice_labelled sc cw ti objs n_extra box psf_box : 0 <= n_extra ->
  (forall ob, In ob objs -> ob_box_size ob = box /\ ob_psf_box_size ob = psf_box) ->
  labelled pixel E box psf_box n_extra (Z.of_nat (length objs))
    (fun ss it => coadd_single_slice ext sc cw ti objs n_extra ss it).
Proof.
  intros Hx Hob ss i s r Hi H.
  destruct (slice_inv sc cw ti objs n_extra ss i s r (proj1 Hi) H)
    as (ob & kcol & krow & ra & de & mask & inputs & Eo & _ & _ & _ & _ & _ & Ri & Rw & _ & Hd).
  split; [exact Ri|]. intros Dr. unfold has_data in Dr. rewrite Rw in Dr.
  destruct (Hd Dr) as (shape & co & w & datas & _ & Ec & Er).
  destruct (Hob ob (nth_error_In _ _ Eo)) as [B1 B2].
  destruct (coadd_spec _ _ _ _ _ _ _ _ _ Ec) as
    (_ & _ & _ & A1 & A2 & A3 & A4 & A5 & A6 & A7 & A8 & A9 & A10 & A11 & _ & A12 & A13 & _ & A14).
  rewrite B1, B2 in *. clear Ec. subst r. cbn [r_noises].
  split; [rewrite map_length, A11; lia|].
  assert (N : forall k a, nth_error (map (imap PF) (co_noises co)) k = Some a -> nrows a = box /\ ncols a = box).
  { intros k a Hk. rewrite nth_error_map in Hk.
    destruct (nth_error (co_noises co) k) as [n|] eqn:En; [|discriminate]. cbn in Hk. injection Hk as <-.
    destruct (A14 0 0) as (_ & _ & _ & _ & _ & A).
    assert (K : (k < S (Z.to_nat n_extra))%nat).
    { rewrite <- A11. apply nth_error_Some. congruence. }
    destruct (A k K) as (a & ds & Ea & Na & Nc & _). rewrite En in Ea. injection Ea as <-.
    cbn [imap nrows ncols]. split; assumption. }
  intros e info a Hb. destruct Hb; cbn [r_image r_bmask r_ormask r_weight r_mfrac r_psf r_noises] in *.
  1-5: cbn [imap nrows ncols String.eqb Ascii.eqb Bool.eqb]; split; assumption.
  - exact (N _ _ H0).
  - replace (String.eqb ("noise" ++ dec (Z.of_nat k) ++ "_cutouts") "psf") with false by reflexivity.
    exact (N _ _ H1).
  - cbn. split; assumption.
Qed.

End S.
