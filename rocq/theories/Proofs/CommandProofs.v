From Coq Require Import ZArith List Bool String Ascii Permutation Lia.
From Coq Require Import List.
From Verif Require Import Lib.Base Lib.Floats Lib.PyStr Lib.PyText Lib.PyDict Model.Files Model.SliceRange Model.Jobs
  Model.Cache Model.ImageInfo Model.ObjectData Model.Affine Model.Gaia Model.SeWcs Model.SliceInputs Model.Coadd
  Model.Writer Model.Metadata Model.Main Model.Piff Model.DesInfo Model.TileInfo Model.Go Model.SingleSlice Model.Epoch Model.Whole
  Model.Process Model.Sched Model.Pool Model.Command
  Spec.PiffSpec Spec.DesInfoSpec Spec.FilesSpec Spec.WriterSpec Spec.RunSpec Spec.GoSpec Spec.SeWcsSpec Spec.ProcessSpec Spec.PoolSpec Spec.CommandSpec
  Proofs.SliceInputsProofs Proofs.PyStrProofs Proofs.DesInfoProofs Proofs.LoadInfoProofs Proofs.CliProofs Proofs.GoProofs.
Import ListNotations.
Open Scope string_scope.
Open Scope list_scope.
Open Scope Z_scope.

(** ** Names of files *)
Lemma pad_free w z : free_of "_" (dec_pad w z).
Proof.
  destruct (pad_shape w z) as (d & D1 & _ & _ & ->). pose proof (digits_free d "_" eq_refl D1) as F.
  destruct (z <? 0); [|exact F]. apply free_iff. apply free_iff in F. cbn [all_chars]. rewrite F. reflexivity.
Qed.

Lemma slug_ccd e c e' c' band r r' :
  (("D" ++ dec_pad 8 e ++ "_" ++ band ++ "_c" ++ dec_pad 2 c ++ "_") ++ r)%string =
  (("D" ++ dec_pad 8 e' ++ "_" ++ band ++ "_c" ++ dec_pad 2 c' ++ "_") ++ r')%string -> c = c'.
Proof.
  intros H. cbn [append] in H. injection H as H. rewrite <- !append_assoc in H. cbn [append] in H.
  pose proof (free_first "_" _ _ _ _ (pad_free 8 e) (pad_free 8 e') H) as E. rewrite E in H.
  apply append_cancel_l in H. injection H as H. rewrite <- !append_assoc in H. apply append_cancel_l in H.
  cbn [append] in H. injection H as H. rewrite <- !append_assoc in H. cbn [append] in H.
  exact (pad_inj 2 _ _ (free_first "_" _ _ _ _ (pad_free 2 c) (pad_free 2 c') H)).
Qed.

Section Command.
Context {F : Type} {FO : FloatOps F} {W P K : Type}.
Notation value := (@Go.value F W (affine F) P).
Notation entries := (@Go.entries F W (affine F) P).

(** In a description that passed the checks, a mask belongs to one CCD. *)
Lemma sane_masks (i : info F) d d' q c c' : sane i -> In d (in_src i) -> In d' (in_src i) -> q <> "" ->
  text_at d "bmask_path" q -> text_at d' "bmask_path" q -> whole_at d "ccdnum" c -> whole_at d' "ccdnum" c' -> c = c'.
Proof.
  intros (t & tile & band & Hd & Hc) I I' Hq B B' C C'.
  destruct Hd as (_ & _ & _ & _ & _ & _ & _ & _ & Hd).
  destruct Hc as (_ & _ & _ & _ & _ & _ & _ & _ & _ & Hc & _).
  assert (L : forall d c, In d (in_src i) -> text_at d "bmask_path" q -> whole_at d "ccdnum" c ->
    exists e, starts ("D" ++ dec_pad 8 e ++ "_" ++ band ++ "_c" ++ dec_pad 2 c ++ "_")%string (basename q)).
  { clear - Hd Hc Hq. intros d c I B C. apply In_nth_error in I as [n I].
    destruct (Forall2_nth _ _ _ Hd _ _ I) as (e & Ie & He). apply nth_error_In in Ie.
    destruct He as (_ & _ & _ & He4 & _ & He6 & _). unfold whole_at in *. unfold path_at, text_at in *.
    rewrite B in He6. assert (c = se_ccdnum e) by congruence. subst c. exists (se_expnum e).
    apply (Hc e (se_bmask_path e) q (basename q) Ie); [right; left; reflexivity|split; assumption|].
    apply basename_file. reflexivity. }
  destruct (L d c I B C) as (e & r & E). destruct (L d' c' I' B' C') as (e' & r' & E'). rewrite E in E'.
  exact (slug_ccd _ _ _ _ _ _ _ E').
Qed.

(** ** Images *)
Lemma hdu_of_inv (d : dict value) pk ek n : hdu_of d pk ek = Ok n ->
  text_key d pk = Ok (fst n) /\ text_key d ek = Ok (snd n).
Proof.
  unfold hdu_of. intros H. apply bind_ok in H as (p & Hp & H). apply bind_ok in H as (e & He & H).
  apply Ok_inj in H. subst. split; assumption.
Qed.

Lemma text_key_some (d : dict value) k s : text_key d k = Ok s -> text_of d k = Some s.
Proof.
  unfold text_key, text_of, getv. destruct (dget d k) as [[[]| | |]|]; cbn [bind]; intros H; try discriminate.
  apply Ok_inj in H. subst. reflexivity.
Qed.

Lemma whole_key_some (d : dict value) k s : whole_key d k = Ok s -> int_key d k = Some s.
Proof.
  unfold whole_key, int_key, getv. destruct (dget d k) as [[[]| | |]|]; cbn [bind]; intros H; try discriminate.
  apply Ok_inj in H. subst. reflexivity.
Qed.

Section Load.
Variables (header_wcs : value -> value -> result W) (affine_wcs : value -> result (affine F))
  (gsobject : value -> result P).

Lemma load_entry_objects n d d' : load_entry affine_wcs gsobject n d = Ok d' ->
  (forall c, dget d "affine_wcs_config" = Some c ->
     exists a, affine_wcs c = Ok a /\ dget d' "affine_wcs" = Some (AffineWcs a)) /\
  (forall c, dget d "galsim_psf_config" = Some c ->
     exists g, gsobject c = Ok g /\ dget d' "galsim_psf" = Some (Psf g)).
Proof.
  unfold load_entry. intros H. apply bind_ok in H as (d1 & H1 & H). apply bind_ok in H as (d2 & H2 & H).
  pose proof (shape_tuple_same _ _ H1) as S. pose proof (load_affine_same _ _ _ H2) as T. split; intros c Hc.
  - unfold load_affine in H2. rewrite S, dget_dset in H2. cbn [String.eqb Ascii.eqb Bool.eqb] in H2.
    rewrite Hc in H2. apply bind_ok in H2 as (a & Ha & H2). apply Ok_inj in H2. exists a. split; [exact Ha|].
    assert (X : dget d2 "affine_wcs" = Some (AffineWcs a)) by (subst d2; rewrite dget_dset; reflexivity).
    destruct (dget d2 "galsim_psf_config").
    + apply bind_ok in H as (g & _ & H). apply Ok_inj in H. subst d'. rewrite dget_dset. exact X.
    + apply Ok_inj in H. subst d'. exact X.
  - rewrite T, S, dget_dset in H by discriminate. cbn [String.eqb Ascii.eqb Bool.eqb] in H. rewrite Hc in H.
    apply bind_ok in H as (g & Hg & H). apply Ok_inj in H. exists g. split; [exact Hg|]. subst d'.
    rewrite dget_dset. reflexivity.
Qed.

Lemma load_flag_objects cfg (i : info F) t1 (t : entries) :
  load header_wcs affine_wcs gsobject (mkent (as_read (in_coadd i)) (map as_read (in_src i))) = Ok t1 ->
  flag_data (Some cfg) t1 = Ok t ->
  forall n d d', nth_error (in_src i) n = Some d -> nth_error (en_src t) n = Some d' ->
  (forall c, dget d "affine_wcs_config" = Some c ->
     exists a, affine_wcs (Plain c) = Ok a /\ dget d' "affine_wcs" = Some (AffineWcs a)) /\
  (forall c, dget d "galsim_psf_config" = Some c ->
     exists g, gsobject (Plain c) = Ok g /\ dget d' "galsim_psf" = Some (Psf g)).
Proof.
  unfold load, flag_data. cbn [en_coadd en_src]. intros H1 H2 n d d' Hd Hd'.
  apply bind_ok in H1 as (c & Hc & H1). apply bind_ok in H1 as (l & Hl & H1). apply Ok_inj in H1. subst t1.
  cbn [en_coadd en_src] in H2. apply bind_ok in H2 as (l' & Hl' & H2). apply Ok_inj in H2. subst t. cbn [en_src] in Hd'.
  apply load_entries_spec in Hl as [_ Hl]. apply mapM_ok in Hl'.
  destruct (Hl n (as_read d)) as (d1 & N1 & L1); [rewrite nth_error_map, Hd; reflexivity|]. destruct (Forall2_nth _ _ _ Hl' _ _ N1) as (d2 & N2 & L2).
  assert (d2 = d') by congruence. subst d2. pose proof (flag_entry_same _ _ _ L2) as S.
  destruct (load_entry_objects _ _ _ L1) as [A B]. split; intros x Hx.
  - destruct (A (Plain x) ltac:(rewrite as_read_get, Hx; reflexivity)) as (a & A1 & A2). exists a. split; [exact A1|].
    rewrite S by discriminate. exact A2.
  - destruct (B (Plain x) ltac:(rewrite as_read_get, Hx; reflexivity)) as (g & B1 & B2). exists g. split; [exact B1|].
    rewrite S by discriminate. exact B2.
Qed.

Lemma images_for cfg (i : info F) t1 (t : entries) images :
  load header_wcs affine_wcs gsobject (mkent (as_read (in_coadd i)) (map as_read (in_src i))) = Ok t1 ->
  flag_data (Some cfg) t1 = Ok t ->
  mapM image_of (en_src t) = Ok images ->
  length images = length (in_src i) /\
  forall n d, nth_error (in_src i) n = Some d ->
    exists im, nth_error images n = Some im /\ image_for affine_wcs gsobject cfg n d im.
Proof.
  intros H1 H2 H. pose proof (load_flag_handed _ _ _ _ _ _ _ H1 H2) as (_ & Hl & Hh). apply mapM_ok in H.
  split; [rewrite <- (Forall2_len _ _ _ H); exact Hl|]. intros n d Hd.
  destruct (Hh n d Hd) as (d' & Hd' & (Kd & Id & Fd & Nd)).
  destruct (load_flag_objects _ _ _ _ H1 H2 n d d' Hd Hd') as [Oa Og].
  destruct (Forall2_nth _ _ _ H _ _ Hd') as (im & Him & E). exists im. split; [exact Him|]. clear H H1 H2 Hh Hl Him.
  unfold image_of in E.
  apply bind_ok in E as (x1 & X1 & E). apply bind_ok in E as (x2 & X2 & E). apply bind_ok in E as (x3 & X3 & E).
  apply bind_ok in E as (x4 & X4 & E). apply bind_ok in E as (x5 & X5 & E). apply bind_ok in E as (x6 & X6 & E).
  apply bind_ok in E as (x7 & X7 & E). apply bind_ok in E as (x8 & X8 & E). apply bind_ok in E as (x9 & X9 & E).
  apply Ok_inj in E. subst im.
  apply hdu_of_inv in X4 as [X4 X4'], X5 as [X5 X5'], X6 as [X6 X6'], X7 as [X7 X7'].
  assert (Kk : forall k, ~ In k ["image_flags"; "affine_wcs"; "galsim_psf"; "image_id"] ->
    dget d' k = option_map Plain (dget d k)) by exact Kd.
  unfold image_for. cbn [i_id i_flags i_offset i_info i_image i_bkg i_weight i_bmask i_ccdnum i_magzp source_of
    s_image_path s_image_ext s_head_path s_piff_path s_ccdnum s_psfex_path s_affine_wcs s_galsim_psf s_image_shape].
  split.
  { unfold whole_key, getv in X1. rewrite Id in X1. cbn [bind] in X1. apply Ok_inj in X1. congruence. }
  split.
  { apply whole_key_some in X2. unfold int_key in X2.
    destruct (dget d "image_flags") as [[]|] eqn:Ef;
      try (exfalso; apply (Nd ltac:(intros f X; discriminate) x2);
           destruct (dget d' "image_flags") as [[[]| | |]|]; try discriminate; congruence).
    destruct (Fd z eq_refl) as (f' & Ef' & Hf'). rewrite Ef' in X2. injection X2 as <-. exists z. split; assumption. }
  unfold hdu_at, maybe_text.
  rewrite (text_key_some _ _ _ X4), (text_key_some _ _ _ X4'), (whole_key_some _ _ _ X8).
  apply (whole_key_kept d) in X3, X8; try (apply Kk; cbn; intros X; repeat (destruct X as [X|X]; [discriminate|]); exact X).
  apply (text_key_kept d) in X4, X5, X6, X7, X4', X5', X6', X7';
    try (apply Kk; cbn; intros X; repeat (destruct X as [X|X]; [discriminate|]); exact X).
  apply (number_key_kept d) in X9; try (apply Kk; cbn; intros X; repeat (destruct X as [X|X]; [discriminate|]); exact X).
  split; [exact X3|]. do 4 (split; [split; assumption|]). split; [exact X8|]. split; [exact X9|].
  do 2 (split; [reflexivity|]). unfold text_of.
  rewrite (Kk "head_path"), (Kk "piff_path"), (Kk "psfex_path"), (Kk "image_shape")
    by (cbn; intros X; repeat (destruct X as [X|X]; [discriminate|]); exact X).
  split; [destruct (dget d "head_path") as [[]|]; reflexivity|].
  split; [destruct (dget d "piff_path") as [[]|]; reflexivity|].
  split; [destruct (dget d "psfex_path") as [[]|]; reflexivity|]. split; [reflexivity|].
  split; [|split; [|destruct (dget d "image_shape") as [[]|]; reflexivity]].
  - intros c Hc. destruct (Oa c Hc) as (a & A1 & A2). exists a. rewrite A2. split; [exact A1|reflexivity].
  - intros c Hc. destruct (Og c Hc) as (g & A1 & A2). exists g. rewrite A2. split; [exact A1|reflexivity].
Qed.
End Load.

Lemma images_ids affine_wcs gsobject cfg (i : info F) (images : list (image F P)) :
  length images = length (in_src i) ->
  (forall n d, nth_error (in_src i) n = Some d ->
    exists im, nth_error images n = Some im /\ image_for (W := W) affine_wcs gsobject cfg n d im) ->
  NoDup (map (@i_id F P) images).
Proof.
  intros Hl H. apply (proj2 (NoDup_nth_error _)). intros n m Hn E. rewrite map_length in Hn.
  assert (G : forall n, (n < length images)%nat -> nth_error (map (@i_id F P) images) n = Some (Z.of_nat n + 1)).
  { intros k Hk. destruct (nth_error (in_src i) k) as [d|] eqn:Ed.
    - destruct (H k d Ed) as (im & Hi & He & _). rewrite nth_error_map, Hi. cbn [option_map]. congruence.
    - apply nth_error_None in Ed. lia. }
  rewrite (G n Hn) in E. destruct (nth_error (map (@i_id F P) images) m) eqn:Em; [|discriminate].
  assert (Hm : (m < length images)%nat).
  { rewrite <- (map_length (@i_id F P)). apply nth_error_Some. congruence. }
  rewrite (G m Hm) in Em. injection E as <-. injection Em as Em. lia.
Qed.

Lemma seeded_in (im : image F P) : forall l seeds, In im (seeded_images l seeds) ->
  exists im0, In im0 l /\ i_bmask im = i_bmask im0 /\ i_ccdnum im = i_ccdnum im0.
Proof.
  induction l as [|x l IH]; intros [|[ns ms] seeds] H; try contradiction. cbn [seeded_images] in H.
  destruct H as [<-|H].
  - exists x. split; [left; reflexivity|]. split; reflexivity.
  - destruct (IH _ H) as (im0 & I0 & E). exists im0. split; [right; exact I0|exact E].
Qed.

Lemma seeded_same_id : forall (l : list (image F P)) seeds, NoDup (map (@i_id F P) l) ->
  forall im im', In im (seeded_images l seeds) -> In im' (seeded_images l seeds) -> i_id im = i_id im' -> im = im'.
Proof.
  assert (G : forall (l : list (image F P)) seeds im, In im (seeded_images l seeds) -> In (i_id im) (map (@i_id F P) l)).
  { induction l as [|x l IH]; intros [|[ns ms] seeds] im H; try contradiction. cbn [seeded_images] in H.
    destruct H as [<-|H]; [left; reflexivity|right; exact (IH _ _ H)]. }
  induction l as [|x l IH]; intros [|[ns ms] seeds] N im im' H H' E; try contradiction. cbn [seeded_images] in H, H'.
  cbn [map] in N. inversion N as [|? ? N1 N2]; subst. destruct H as [<-|H], H' as [<-|H'].
  - reflexivity.
  - exfalso. apply N1. apply G in H'. rewrite <- E in H'. exact H'.
  - exfalso. apply N1. apply G in H. rewrite E in H. exact H.
  - exact (IH _ N2 _ _ H H' E).
Qed.

(** The WCS of an image is determined by its description. *)
Lemma wcs_from_one (load_image : string -> string -> result (wcs F)) load_head (load_piff : string -> Z -> result (P * wcs F))
  (si : SeWcs.source (F := F) (P := P)) c X X' : wcs_from load_image load_head load_piff si c X -> wcs_from load_image load_head load_piff si c X' -> X = X'.
Proof. intros H H'. inversion H; subst; inversion H'; subst; congruence. Qed.
End Command.
