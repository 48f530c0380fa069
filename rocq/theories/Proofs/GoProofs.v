(** Proofs about the command line tool. *)
From Coq Require Import ZArith List Bool String Lia.
From Coq Require Import List.
From Verif Require Import Lib.Base Lib.Floats Lib.PyStr Lib.PyText Lib.PyDict Model.Files Model.SliceRange
  Model.ImageInfo Model.ObjectData Model.Writer Model.Metadata Model.Main Model.Piff Model.DesInfo Model.Cli
  Model.TileInfo Spec.LoadInfoSpec Model.Go Spec.PiffSpec Spec.DesInfoSpec Spec.FilesSpec Spec.GoSpec
  Proofs.SliceInputsProofs Proofs.LoadInfoProofs Proofs.PiffProofs Proofs.DesInfoProofs Proofs.FilesProofs
  Spec.TileInfoSpec Proofs.TileInfoProofs.
Import ListNotations.
Open Scope string_scope.
Open Scope list_scope.
Open Scope Z_scope.

Section P.
Context {F : Type} {FO : FloatOps F} {W A G : Type}.
Notation value := (@value F W A G).
Notation as_read := (@as_read F W A G).
Notation Plain := (@Plain F W A G).
Notation shape_tuple := (@shape_tuple F W A G).
Notation flag_entry := (@flag_entry F FO W A G).
Notation se_view := (@se_view F W A G).
Notation tile_view := (@tile_view F FO W A G).

Lemma as_read_get (d : dict (val F)) k : dget (as_read d) k = option_map Plain (dget d k).
Proof.
  induction d as [|[a v] d IH]; [reflexivity|]. cbn [as_read map dget fst snd].
  destruct (String.eqb a k); [reflexivity|]. exact IH.
Qed.

Lemma mapM_ok {X Y} (f : X -> result Y) : forall l l', mapM f l = Ok l' <-> Forall2 (fun x y => f x = Ok y) l l'.
Proof.
  induction l as [|x l IH]; intros l'; cbn [mapM].
  - split; intros H; [apply Ok_inj in H; subst; constructor|inversion H; reflexivity].
  - split; intros H.
    + apply bind_ok in H as (y & Hy & H). apply bind_ok in H as (ys & Hys & H). apply Ok_inj in H. subst.
      constructor; [exact Hy|]. apply IH. exact Hys.
    + inversion H; subst. rewrite H2. cbn [bind]. apply IH in H4. rewrite H4. reflexivity.
Qed.

Lemma Forall2_len {X Y} (R : X -> Y -> Prop) : forall l l', Forall2 R l l' -> length l = length l'.
Proof. induction 1; cbn; congruence. Qed.

Lemma Forall2_nth {X Y} (R : X -> Y -> Prop) : forall l l', Forall2 R l l' ->
  forall n x, nth_error l n = Some x -> exists y, nth_error l' n = Some y /\ R x y.
Proof.
  induction 1 as [|x y l l' H _ IH]; intros [|n] z Hz; try discriminate.
  - injection Hz as <-. exists y. split; [reflexivity|exact H].
  - exact (IH n z Hz).
Qed.

(** ** Loading *)
Section Load.
Variables (header_wcs : value -> value -> result W) (affine_wcs : value -> result A) (gsobject : value -> result G).
Notation load_coadd := (load_coadd header_wcs affine_wcs).
Notation load_entry := (load_entry affine_wcs gsobject).
Notation load_entries := (load_entries affine_wcs gsobject).

Lemma shape_tuple_same d d' : shape_tuple d = Ok d' -> forall k, dget d' k = dget d k.
Proof.
  unfold shape_tuple. destruct (dget d "image_shape") as [[[]| | |]|] eqn:E; try discriminate; intros H k;
    apply Ok_inj in H; subst; [|reflexivity].
  rewrite dget_dset. destruct (String.eqb_spec "image_shape" k); [subst; symmetry; exact E|reflexivity].
Qed.

Lemma load_affine_same d d' : load_affine affine_wcs d = Ok d' ->
  forall k, k <> "affine_wcs" -> dget d' k = dget d k.
Proof.
  unfold load_affine. destruct (dget d "affine_wcs_config") as [c|]; intros H k Hk.
  - apply bind_ok in H as (a & _ & H). apply Ok_inj in H. subst. rewrite dget_dset.
    destruct (String.eqb_spec "affine_wcs" k); [congruence|reflexivity].
  - apply Ok_inj in H. subst. reflexivity.
Qed.

Lemma load_coadd_same d d' : load_coadd d = Ok d' ->
  (forall k, ~ In k ["image_wcs"; "affine_wcs"; "image_id"] -> dget d' k = dget d k) /\
  dget d' "image_id" = Some (Plain (VInt 0)) /\
  dget d "path" <> None /\ dget d "filename" <> None /\
  ((exists p x w, dget d "image_path" = Some p /\ dget d "image_ext" = Some x /\ header_wcs p x = Ok w /\
      dget d' "image_wcs" = Some (HeaderWcs w)) \/
   (dget d "affine_wcs_config" <> None /\ dget d' "image_wcs" = Some (Plain VNone))).
Proof.
  unfold Go.load_coadd. intros H. apply bind_ok in H as (v1 & H1 & H). apply bind_ok in H as (v2 & H2 & H).
  apply bind_ok in H as (d1 & H3 & H). apply bind_ok in H as (d2 & H4 & H).
  pose proof (shape_tuple_same _ _ H) as S. pose proof (load_affine_same _ _ H4) as T.
  assert (K : forall k, ~ In k ["image_wcs"; "affine_wcs"; "image_id"] -> dget d' k = dget d k).
  { intros k Hk. rewrite S, dget_dset.
    destruct (String.eqb_spec "image_id" k) as [<-|N1]; [exfalso; apply Hk; cbn; auto|].
    rewrite T by (intros ->; apply Hk; cbn; auto).
    destruct (p <- _ ;; _) in H3.
    - apply Ok_inj in H3. subst d1. rewrite dget_dset.
      destruct (String.eqb_spec "image_wcs" k) as [<-|]; [exfalso; apply Hk; cbn; auto|reflexivity].
    - destruct (has _ _); [|discriminate]. apply Ok_inj in H3. subst d1. rewrite dget_dset.
      destruct (String.eqb_spec "image_wcs" k) as [<-|]; [exfalso; apply Hk; cbn; auto|reflexivity]. }
  split; [exact K|]. split; [rewrite S, dget_dset; reflexivity|].
  split; [unfold getv in H1; destruct (dget d "path"); [discriminate|congruence]|].
  split; [unfold getv in H2; destruct (dget d "filename"); [discriminate|congruence]|].
  assert (I : dget d' "image_wcs" = dget d1 "image_wcs").
  { rewrite S, dget_dset. cbn. apply T. discriminate. }
  rewrite I. destruct (p <- _ ;; _) as [w|e] eqn:E in H3.
  - left. apply bind_ok in E as (p & Ep & E). apply bind_ok in E as (x & Ex & E). unfold getv in Ep, Ex.
    destruct (dget d "image_path") as [p'|] eqn:Ep'; [|discriminate].
    destruct (dget d "image_ext") as [x'|] eqn:Ex'; [|discriminate].
    apply Ok_inj in Ep, Ex. subst p' x'. exists p, x, w. apply Ok_inj in H3. subst d1. rewrite dget_dset.
    repeat split; try reflexivity. exact E.
  - right. unfold has in H3. destruct (dget d "affine_wcs_config"); [|discriminate]. split; [discriminate|].
    apply Ok_inj in H3. subst d1. rewrite dget_dset. reflexivity.
Qed.

Lemma load_entry_same n d d' : load_entry n d = Ok d' ->
  (forall k, ~ In k ["affine_wcs"; "galsim_psf"; "image_id"] -> dget d' k = dget d k) /\
  dget d' "image_id" = Some (Plain (VInt (n + 1))).
Proof.
  unfold Go.load_entry. intros H. apply bind_ok in H as (d1 & H1 & H). apply bind_ok in H as (d2 & H2 & H).
  pose proof (shape_tuple_same _ _ H1) as S. pose proof (load_affine_same _ _ H2) as T.
  assert (U : forall k, k <> "galsim_psf" -> dget d' k = dget d2 k).
  { intros k Hk. destruct (dget d2 "galsim_psf_config").
    - apply bind_ok in H as (g & _ & H). apply Ok_inj in H. subst d'. rewrite dget_dset.
      destruct (String.eqb_spec "galsim_psf" k); [congruence|reflexivity].
    - apply Ok_inj in H. subst. reflexivity. }
  split.
  - intros k Hk. rewrite U, T, S, dget_dset by (intros ->; apply Hk; cbn; auto).
    destruct (String.eqb_spec "image_id" k) as [<-|]; [exfalso; apply Hk; cbn; auto|reflexivity].
  - rewrite U, T, S, dget_dset by discriminate. reflexivity.
Qed.

Lemma load_entries_spec : forall l n l', load_entries n l = Ok l' ->
  length l' = length l /\
  forall k d, nth_error l k = Some d -> exists d', nth_error l' k = Some d' /\ load_entry (n + Z.of_nat k) d = Ok d'.
Proof.
  induction l as [|x l IH]; intros n l' H; cbn [Go.load_entries] in H.
  - apply Ok_inj in H. subst. split; [reflexivity|]. intros [|]; discriminate.
  - apply bind_ok in H as (y & Hy & H). apply bind_ok in H as (ys & Hys & H). apply Ok_inj in H. subst.
    apply IH in Hys as [L Hn]. split; [cbn; congruence|].
    intros [|k] d Hd.
    + injection Hd as <-. exists y. split; [reflexivity|]. rewrite Z.add_0_r. exact Hy.
    + apply Hn in Hd as (d' & A1 & A2). exists d'. split; [exact A1|].
      rewrite <- A2. f_equal. lia.
Qed.
End Load.

(** ** Flagging *)
Lemma flag_entry_same config d d' : flag_entry config d = Ok d' ->
  forall k, k <> "image_flags" -> dget d' k = dget d k.
Proof.
  unfold flag_entry. destruct (flag_source _ _) as [s [e|]]; [discriminate|]. intros H k Hk.
  apply Ok_inj in H. subst. destruct (si_flags s); [|reflexivity]. rewrite dget_dset.
  destruct (String.eqb_spec "image_flags" k); [congruence|reflexivity].
Qed.

(** A source that is flagged without an exception: its flags are those that are
    due, even if not all the keys are there. *)
Lemma flag_source_due (cfg : se_config (F := F)) s s' f :
  flag_source (Some cfg) s = (s', None) -> si_flags s = Some f ->
  exists f', si_flags s' = Some f' /\
  forall k, 0 <= k -> (Z.testbit f' k = true <-> Z.testbit f k = true \/ flag_due cfg s k).
Proof.
  intros H Hf. unfold flag_source in H.
  destruct (flag_piff (Some cfg) s) as [s1 [e|]] eqn:E1; [discriminate|].
  assert (P : exists f1, si_flags s1 = Some f1 /\ si_ccdnum s1 = si_ccdnum s /\
    forall k, 0 <= k -> (Z.testbit f1 k = true <-> Z.testbit f k = true \/
      exists cuts p, sc_cuts cfg = Some cuts /\ si_piff s = Some p /\ piff_cut_fails p cuts k)).
  { unfold flag_piff in E1. rewrite Hf in E1. destruct (sc_cuts cfg) as [cuts|] eqn:Ec.
    - destruct (si_piff s) as [p|] eqn:Ep.
      + destruct (negb _ && negb _); [discriminate|]. apply pair_equal_spec in E1 as [<- _].
        exists (Z.lor f (compute_piff_flags p cuts)). split; [reflexivity|]. split; [reflexivity|].
        intros k Hk. rewrite Z.lor_spec, orb_true_iff, (piff_flags_spec p cuts k Hk). split; intros [X|X]; auto.
        * right. exists cuts, p. auto.
        * destruct X as (c' & p' & X1 & X2 & X). injection X1 as <-. injection X2 as <-. auto.
      + apply pair_equal_spec in E1 as [<- _]. exists f. split; [exact Hf|]. split; [reflexivity|].
        intros k Hk. split; [auto|]. intros [X|(c' & p' & _ & X & _)]; [exact X|discriminate].
    - apply pair_equal_spec in E1 as [<- _]. exists f. split; [exact Hf|]. split; [reflexivity|].
      intros k Hk. split; [auto|]. intros [X|(c' & p' & X & _)]; [exact X|discriminate]. }
  destruct P as (f1 & F1 & N1 & P). unfold flag_ccd in H. rewrite F1, N1 in H. unfold flag_due.
  destruct (sc_ignored cfg) as [l|] eqn:Ei.
  - destruct (si_ccdnum s) as [n|] eqn:En; [|discriminate].
    destruct (existsb (Z.eqb n) l) eqn:Ex; apply pair_equal_spec in H as [<- _].
    + exists (Z.lor f1 IGNORED_CCD). split; [reflexivity|]. intros k Hk.
      rewrite Z.lor_spec, orb_true_iff, (P k Hk). unfold IGNORED_CCD. rewrite Z.pow2_bits_eqb by lia. rewrite Z.eqb_eq.
      apply existsb_In in Ex. split.
      * intros [[X|X]|X]; auto. right. right. split; [lia|]. exists l, n. auto.
      * intros [X|[X|[X _]]]; auto.
    + exists f1. split; [exact F1|]. intros k Hk. rewrite (P k Hk). split; [tauto|].
      intros [X|[X|[_ (l' & n' & X1 & X2 & X)]]]; auto. injection X1 as <-. injection X2 as <-.
      apply existsb_In in X. congruence.
  - apply pair_equal_spec in H as [<- _]. exists f1. split; [exact F1|]. intros k Hk. rewrite (P k Hk).
    split; [tauto|]. intros [X|[X|[_ (l' & n' & X1 & _)]]]; auto. discriminate.
Qed.

Lemma flag_entry_flags cfg d d' f : flag_entry (Some cfg) d = Ok d' ->
  dget d "image_flags" = Some (Plain (VInt f)) ->
  exists f', dget d' "image_flags" = Some (Plain (VInt f')) /\
  forall k, 0 <= k -> (Z.testbit f' k = true <-> Z.testbit f k = true \/ flag_due cfg (src_view d) k).
Proof.
  unfold flag_entry. intros H Hf. destruct (flag_source _ _) as [s [e|]] eqn:E; [discriminate|].
  assert (I : si_flags (src_view d) = Some f) by (cbn; unfold int_key; rewrite Hf; reflexivity).
  destruct (flag_source_due _ _ _ _ E I) as (f' & F' & D). rewrite F' in H. apply Ok_inj in H. subst.
  exists f'. split; [rewrite dget_dset; reflexivity|exact D].
Qed.

Lemma flag_entry_none cfg (d d' : dict value) : flag_entry (Some cfg) d = Ok d' ->
  (forall f, dget d "image_flags" <> Some (Plain (VInt f))) -> d' = d.
Proof.
  unfold flag_entry. intros H Hf.
  assert (I : si_flags (src_view d) = None).
  { cbn. unfold int_key. destruct (dget d "image_flags") as [[[]| | |]|]; try reflexivity. exfalso. eapply Hf. reflexivity. }
  unfold flag_source, flag_piff, flag_ccd in H. rewrite I in H. cbn [si_flags src_view] in I.
  destruct (sc_cuts cfg); [destruct (si_piff (src_view d)); [discriminate|]|];
    rewrite ?I in H; cbn [src_view si_flags si_ccdnum] in H; rewrite ?I in H;
    (destruct (sc_ignored cfg); [destruct (int_key d "ccdnum"); [|discriminate]; destruct (existsb _ _); [discriminate|]|]);
    cbn [src_view si_flags] in H; rewrite ?I in H; apply Ok_inj in H; congruence.
Qed.

(** ** The description *)
Lemma path_key_read (d : dict (val F)) k v : path_key (as_read d) k = Ok v <-> path_at d k v.
Proof.
  unfold path_key, path_at. rewrite as_read_get.
  destruct (dget d k) as [[]|]; cbn; split; intros H; try discriminate; try contradiction;
    try (apply Ok_inj in H; subst; reflexivity); subst; reflexivity.
Qed.

Lemma text_key_read (d : dict (val F)) k s : text_key (as_read d) k = Ok s <-> text_at d k s.
Proof.
  unfold text_key, text_at, getv. rewrite as_read_get.
  destruct (dget d k) as [[]|]; cbn; split; intros H; try discriminate;
    [apply Ok_inj in H; subst; reflexivity|injection H as ->; reflexivity].
Qed.

Lemma whole_key_read (d : dict (val F)) k z : whole_key (as_read d) k = Ok z <-> whole_at d k z.
Proof.
  unfold whole_key, whole_at, getv. rewrite as_read_get.
  destruct (dget d k) as [[]|]; cbn; split; intros H; try discriminate;
    [apply Ok_inj in H; subst; reflexivity|injection H as ->; reflexivity].
Qed.

Lemma number_key_read (d : dict (val F)) k x : number_key (as_read d) k = Ok x <-> number_at d k x.
Proof.
  unfold number_key, number_at, getv. rewrite as_read_get.
  destruct (dget d k) as [[]|]; cbn; split; intros H; try discriminate;
    try (destruct H as [H|(z' & H & _)]; discriminate).
  - apply Ok_inj in H. subst. right. exists z. auto.
  - destruct H as [H|(z' & H & ->)]; [discriminate|]. injection H as ->. reflexivity.
  - apply Ok_inj in H. subst. auto.
  - destruct H as [H|(z' & H & _)]; [injection H as ->; reflexivity|discriminate].
Qed.

Lemma se_view_read (d : dict (val F)) e : se_view (as_read d) = Ok e <-> describes_source d e.
Proof.
  unfold se_view, describes_source. split.
  - intros H. repeat (apply bind_ok in H as (? & ? & H)). apply Ok_inj in H. subst e. cbn.
    repeat split; first [apply path_key_read|apply text_key_read|apply whole_key_read]; assumption.
  - destruct e. cbn. intros (H1 & H2 & H3 & H4 & H).
    apply text_key_read in H1, H2. apply whole_key_read in H3, H4. rewrite H1, H2, H3, H4. cbn [bind].
    repeat (let X := fresh in destruct H as [X H]; apply path_key_read in X; rewrite X; cbn [bind]).
    apply path_key_read in H. rewrite H. reflexivity.
Qed.

Lemma tile_view_read (i : info F) v :
  tile_view (mkent (as_read (in_coadd i)) (map (as_read) (in_src i))) = Ok v <-> describes i v.
Proof.
  assert (L : forall l l', mapM (se_view) (map (as_read) l) = Ok l' <-> Forall2 describes_source l l').
  { intros l l'. rewrite mapM_ok. revert l'. induction l as [|x l IH]; intros l'; split; intros H; inversion H; subst;
      try constructor; try (apply se_view_read; assumption); apply IH; assumption. }
  unfold tile_view, describes. cbn [en_coadd en_src]. split.
  - intros H. repeat (apply bind_ok in H as (? & ? & H)). apply Ok_inj in H. subst v. cbn.
    repeat split; first [apply path_key_read|apply text_key_read|apply number_key_read|apply L]; assumption.
  - destruct v. cbn. intros (H1 & H2 & H3 & H4 & H5 & H6 & H7 & H8 & H9).
    apply path_key_read in H1, H2, H3, H4, H5, H6. apply number_key_read in H7. apply text_key_read in H8.
    apply L in H9. rewrite H1, H2, H3, H4, H5, H6. cbn [bind]. rewrite H7. cbn [bind]. rewrite H8. cbn [bind].
    rewrite H9. reflexivity.
Qed.

(** What is checked depends on the keys that are read only. *)
Definition checked_keys : list string :=
  ["band"; "tilename"; "expnum"; "ccdnum"; "bkg_path"; "bmask_path"; "image_path"; "piff_path"; "psfex_path";
   "psf_path"; "seg_path"; "weight_path"; "head_path"; "gaia_stars_file"; "cat_path"; "scale"].

Definition same_checked (d d' : dict value) : Prop := forall k, In k checked_keys -> dget d' k = dget d k.

Lemma se_view_same d d' : same_checked d d' -> se_view d' = se_view d.
Proof.
  intros H. unfold se_view, text_key, whole_key, path_key, getv.
  rewrite !H by (cbn; tauto). reflexivity.
Qed.

Lemma tile_view_same t t' :
  same_checked (en_coadd t) (en_coadd t') -> Forall2 same_checked (en_src t) (en_src t') ->
  tile_view t' = tile_view t.
Proof.
  intros H1 H2. assert (M : mapM (se_view) (en_src t') = mapM (se_view) (en_src t)).
  { induction H2 as [|x y l l' X _ IH]; [reflexivity|]. cbn [mapM]. rewrite (se_view_same _ _ X), IH. reflexivity. }
  unfold tile_view, text_key, number_key, path_key, getv. rewrite M.
  rewrite !H1 by (cbn; tauto). reflexivity.
Qed.

(** ** All steps together *)
Section Plan.
Variables (header_wcs : value -> value -> result W) (affine_wcs : value -> result A) (gsobject : value -> result G).
Notation load := (load header_wcs affine_wcs gsobject).
Notation read_in i := (mkent (as_read (in_coadd i)) (map as_read (in_src i))).

Lemma due_read cfg (d : dict (val F)) d1 k :
  (forall k, ~ In k ["affine_wcs"; "galsim_psf"; "image_id"] -> dget d1 k = dget (as_read d) k) ->
  (flag_due cfg (src_view d1) k <-> bit_due cfg d k).
Proof.
  intros S. unfold flag_due, bit_due, src_view. cbn [si_piff si_ccdnum]. unfold int_key.
  rewrite !S by (cbn; intros X; repeat (destruct X as [X|X]; [discriminate|]); exact X). rewrite !as_read_get.
  split; (intros [H|[Hk H]]; [left|right; split; [exact Hk|]]).
  - destruct H as (cuts & p & H1 & H2 & H3). destruct (dget d "piff_info") as [[]|]; cbn in H2; try discriminate.
    injection H2 as <-. exists cuts, p0. auto.
  - destruct H as (l & n & H1 & H2 & H3). destruct (dget d "ccdnum") as [[]|]; cbn in H2; try discriminate.
    injection H2 as <-. exists l, z. auto.
  - destruct H as (cuts & r & H1 & H2 & H3). rewrite H2. cbn. exists cuts, (pr_info r). auto.
  - destruct H as (l & n & H1 & H2 & H3). rewrite H2. cbn. exists l, n. auto.
Qed.

(** A source with failed cuts has the keys that are written to the log. *)
Lemma load_flag_logged cfg i t1 t : load (read_in i) = Ok t1 -> flag_data (Some cfg) t1 = Ok t ->
  forall d cuts r k, In d (in_src i) -> sc_cuts cfg = Some cuts -> dget d "piff_info" = Some (VPiff r) ->
  0 <= k -> piff_cut_fails (pr_info r) cuts k ->
  dget d "path" <> None /\ dget d "filename" <> None.
Proof.
  unfold Go.load, flag_data. cbn [en_coadd en_src]. intros H1 H2 d cuts r k Hd Hc Hr Hk Hf.
  apply bind_ok in H1 as (c & _ & H1). apply bind_ok in H1 as (l & Hl & H1). apply Ok_inj in H1. subst t1.
  cbn [en_coadd en_src] in H2. apply bind_ok in H2 as (l' & Hl' & H2). clear H2 t.
  apply load_entries_spec in Hl as [_ Hl]. apply mapM_ok in Hl'.
  apply In_nth_error in Hd as [n Hd].
  assert (Hd' : nth_error (map as_read (in_src i)) n = Some (as_read d)) by (rewrite nth_error_map, Hd; reflexivity).
  apply Hl in Hd' as (d1 & N1 & L1). destruct (Forall2_nth _ _ _ Hl' _ _ N1) as (d' & _ & L2).
  apply load_entry_same in L1 as [S _].
  assert (S' : forall k, ~ In k ["affine_wcs"; "galsim_psf"; "image_id"] -> dget d1 k = option_map Plain (dget d k)).
  { intros q Hq. rewrite S by exact Hq. apply as_read_get. } clear S.
  assert (Hp : si_piff (src_view d1) = Some (pr_info r)).
  { cbn [si_piff src_view]. rewrite S', Hr by (cbn; intros X; repeat (destruct X as [X|X]; [discriminate|]); exact X).
    reflexivity. }
  assert (Hg : si_logged (src_view d1) = true).
  { unfold flag_entry, flag_source, flag_piff in L2. rewrite Hc, Hp in L2.
    destruct (si_flags (src_view d1)); [|discriminate].
    assert (Hz : (compute_piff_flags (pr_info r) cuts =? 0) = false).
    { apply Z.eqb_neq. intros E. apply (piff_flags_spec _ _ k Hk) in Hf. rewrite E, Z.bits_0 in Hf. discriminate. }
    rewrite Hz in L2. cbn [negb andb set_flags si_logged] in L2.
    destruct (si_logged (src_view d1)); [reflexivity|discriminate]. }
  cbn [si_logged src_view] in Hg. unfold has in Hg.
  rewrite !S' in Hg by (cbn; intros X; repeat (destruct X as [X|X]; [discriminate|]); exact X).
  destruct (dget d "path"), (dget d "filename"); try discriminate. split; discriminate.
Qed.

Lemma load_flag_handed cfg i t1 t : load (read_in i) = Ok t1 -> flag_data (Some cfg) t1 = Ok t -> handed_over cfg i t.
Proof.
  unfold Go.load, flag_data. cbn [en_coadd en_src]. intros H1 H2.
  apply bind_ok in H1 as (c & Hc & H1). apply bind_ok in H1 as (l & Hl & H1). apply Ok_inj in H1. subst t1.
  cbn [en_coadd en_src] in H2. apply bind_ok in H2 as (l' & Hl' & H2). apply Ok_inj in H2. subst t.
  apply load_coadd_same in Hc as (Hc1 & Hc2 & _). apply load_entries_spec in Hl as [Ll Hl].
  apply mapM_ok in Hl'. split; [|split]; cbn [en_coadd en_src].
  - split; [|exact Hc2]. intros k Hk. rewrite Hc1 by exact Hk. apply as_read_get.
  - rewrite <- (Forall2_len _ _ _ Hl'), Ll, map_length. reflexivity.
  - intros n d Hd. assert (Hd' : nth_error (map as_read (in_src i)) n = Some (as_read d)).
    { rewrite nth_error_map, Hd. reflexivity. }
    apply Hl in Hd' as (d1 & N1 & L1). destruct (Forall2_nth _ _ _ Hl' _ _ N1) as (d' & N2 & L2).
    exists d'. split; [exact N2|]. apply load_entry_same in L1 as [S1 S2].
    pose proof (flag_entry_same _ _ _ L2) as S3. split; [|split; [|split]].
    + intros k Hk. rewrite S3 by (intros ->; apply Hk; cbn; auto).
      rewrite S1 by (intros X; apply Hk; cbn in *; tauto). apply as_read_get.
    + rewrite S3 by discriminate. rewrite S2. do 3 f_equal.
    + intros f Hf. assert (Hf1 : dget d1 "image_flags" = Some (Plain (VInt f))).
      { rewrite S1 by (cbn; intros X; repeat (destruct X as [X|X]; [discriminate|]); exact X).
        rewrite as_read_get, Hf. reflexivity. }
      destruct (flag_entry_flags _ _ _ _ L2 Hf1) as (f' & X1 & X2). exists f'. split; [exact X1|].
      intros k Hk. rewrite (X2 k Hk), (due_read cfg d d1 k S1). reflexivity.
    + intros Hf f. assert (Hf1 : dget d1 "image_flags" = option_map Plain (dget d "image_flags")).
      { rewrite S1 by (cbn; intros X; repeat (destruct X as [X|X]; [discriminate|]); exact X). apply as_read_get. }
      assert (Hf2 : forall f, dget d1 "image_flags" <> Some (Plain (VInt f))).
      { intros g. rewrite Hf1. specialize (Hf g). destruct (dget d "image_flags"); cbn; congruence. }
      rewrite (flag_entry_none _ _ _ L2 Hf2). apply Hf2.
Qed.

Lemma load_flag_view config i t1 t : load (read_in i) = Ok t1 -> flag_data config t1 = Ok t ->
  tile_view t = tile_view (read_in i).
Proof.
  unfold Go.load, flag_data. cbn [en_coadd en_src]. intros H1 H2.
  apply bind_ok in H1 as (c & Hc & H1). apply bind_ok in H1 as (l & Hl & H1). apply Ok_inj in H1. subst t1.
  cbn [en_coadd en_src] in H2. apply bind_ok in H2 as (l' & Hl' & H2). apply Ok_inj in H2. subst t.
  apply load_coadd_same in Hc as (Hc1 & _). apply mapM_ok in Hl'.
  apply tile_view_same; cbn [en_coadd en_src].
  - intros k Hk. apply Hc1. intros X. cbn in Hk, X.
    repeat (destruct X as [X|X]; [subst k; repeat (destruct Hk as [Hk|Hk]; [discriminate|]); exact Hk|]). exact X.
  - revert l l' Hl Hl'. generalize (map as_read (in_src i)). generalize 0.
    intros n l0. revert n. induction l0 as [|d l0 IH]; intros n l l' Hl Hl'; cbn [Go.load_entries] in Hl.
    + apply Ok_inj in Hl. subst l. inversion Hl'. constructor.
    + apply bind_ok in Hl as (d1 & E1 & Hl). apply bind_ok in Hl as (l1 & E2 & Hl). apply Ok_inj in Hl. subst l.
      inversion Hl' as [|? d2 ? l2 E3 E4]; subst. constructor; [|exact (IH _ _ _ E2 E4)].
      intros k Hk. rewrite (flag_entry_same _ _ _ E3).
      * apply (proj1 (load_entry_same _ _ _ _ _ E1)). intros X. cbn in Hk, X.
        repeat (destruct X as [X|X]; [subst k; repeat (destruct Hk as [Hk|Hk]; [discriminate|]); exact Hk|]). exact X.
      * intros ->. cbn in Hk. repeat (destruct Hk as [Hk|Hk]; [discriminate|]); exact Hk.
Qed.

(** The check is that of the file. *)
Lemma check_sane pop first (i : info F) : picks pop -> picks first ->
  (check pop first (read_in i) = Ok tt <-> sane i).
Proof.
  intros P1 P2. unfold check, sane. split.
  - intros H. apply bind_ok in H as (v & Hv & H). apply tile_view_read in Hv. apply (check_info_iff pop first P1 P2) in H.
    destruct H as (tile & band & H). exists v, tile, band. split; assumption.
  - intros (v & tile & band & Hv & H). apply tile_view_read in Hv. rewrite Hv. cbn [bind].
    apply (check_info_iff pop first P1 P2). exists tile, band. exact H.
Qed.
End Plan.
(** ** The rows of the table *)
Lemma text_key_kept (d : dict (val F)) (d' : dict value) k s :
  dget d' k = option_map Plain (dget d k) -> text_key d' k = Ok s -> text_at d k s.
Proof.
  unfold text_key, text_at, getv. intros ->. destruct (dget d k) as [[]|]; cbn; intros H; try discriminate.
  apply Ok_inj in H. subst. reflexivity.
Qed.

Lemma whole_key_kept (d : dict (val F)) (d' : dict value) k s :
  dget d' k = option_map Plain (dget d k) -> whole_key d' k = Ok s -> whole_at d k s.
Proof.
  unfold whole_key, whole_at, getv. intros ->. destruct (dget d k) as [[]|]; cbn; intros H; try discriminate.
  apply Ok_inj in H. subst. reflexivity.
Qed.

Lemma number_key_kept (d : dict (val F)) (d' : dict value) k s :
  dget d' k = option_map Plain (dget d k) -> number_key d' k = Ok s -> number_at d k s.
Proof.
  intros Hk H. apply (number_key_read d k s). unfold number_key, getv in *. rewrite as_read_get, <- Hk. exact H.
Qed.

Lemma im_view_row wcs_text cfg n (d : dict (val F)) (d' : dict value) e r :
  source_handed_over cfg n d d' -> im_view wcs_text d' = Ok e -> row_of e r -> source_recorded cfg n d r.
Proof.
  intros (Kd & Id & Fd & Nd) H R. unfold im_view in H.
  apply bind_ok in H as (x1 & X1 & H). apply bind_ok in H as (x2 & X2 & H). apply bind_ok in H as (x3 & X3 & H).
  apply bind_ok in H as (x4 & X4 & H). apply bind_ok in H as (x5 & X5 & H). apply bind_ok in H as (x6 & X6 & H).
  apply bind_ok in H as (x7 & X7 & H). apply bind_ok in H as (x8 & X8 & H). apply bind_ok in H as (x9 & X9 & H).
  apply bind_ok in H as (x10 & X10 & H). apply bind_ok in H as (x11 & X11 & H). apply bind_ok in H as (x12 & X12 & H).
  apply bind_ok in H as (x13 & X13 & H). apply Ok_inj in H. subst e.
  assert (K : forall k, ~ In k ["image_flags"; "affine_wcs"; "galsim_psf"; "image_id"] ->
    dget d' k = option_map Plain (dget d k)) by exact Kd.
  apply (number_key_kept d) in X3, X4, X5;
    try (apply K; cbn; intros X; repeat (destruct X as [X|X]; [discriminate|]); exact X).
  apply (text_key_kept d) in X6, X7, X8, X9, X10, X11, X12, X13;
    try (apply K; cbn; intros X; repeat (destruct X as [X|X]; [discriminate|]); exact X).
  destruct R as (R1 & R2 & R3 & R4 & R5 & R6 & R7 & R8 & R9 & R10 & R11 & R12 & R13 & _).
  cbn [im_id im_flags im_magzp im_scale im_offset im_image_path im_weight_path im_bmask_path im_bkg_path
       im_image_ext im_weight_ext im_bmask_ext im_bkg_ext] in *.
  unfold source_recorded, ext_at. rewrite R1, R2, R3, R4, R5, R6, R7, R8, R9. split.
  { unfold whole_key, getv in X1. rewrite Id in X1. cbn in X1. apply Ok_inj in X1. congruence. }
  split.
  { unfold whole_at. unfold whole_key, getv in X2.
    assert (D : (exists f, dget d "image_flags" = Some (VInt f)) \/ (forall f, dget d "image_flags" <> Some (VInt f))).
    { destruct (dget d "image_flags") as [[]|]; try (right; intros; discriminate). left. eauto. }
    destruct D as [[f Hf]|D].
    - destruct (Fd f Hf) as (f' & F1 & F2). rewrite F1 in X2. cbn in X2. apply Ok_inj in X2. subst x2. eauto.
    - exfalso. specialize (Nd D). destruct (dget d' "image_flags") as [[[]| | |]|]; cbn in X2; try discriminate.
      eapply Nd. reflexivity. }
  repeat (split; [assumption|]).
  split; [eauto|]. split; [eauto|]. split; eauto.
Qed.

Lemma im_coadd_row wcs_text (d : dict (val F)) (d' : dict value) e r :
  coadd_handed_over d d' -> im_coadd wcs_text d' = Ok e -> coadd_row_of e r -> coadd_recorded d r.
Proof.
  intros (K & Id) H R. unfold im_coadd in H.
  apply bind_ok in H as (x1 & X1 & H). apply bind_ok in H as (x2 & X2 & H). apply bind_ok in H as (x3 & X3 & H).
  apply bind_ok in H as (x4 & X4 & H). apply bind_ok in H as (x5 & X5 & H). apply Ok_inj in H. subst e.
  unfold kept_but in K. apply (number_key_kept d) in X3, X4, X5;
    try (apply K; cbn; intros X; repeat (destruct X as [X|X]; [discriminate|]); exact X).
  apply (whole_key_kept d) in X2;
    try (apply K; cbn; intros X; repeat (destruct X as [X|X]; [discriminate|]); exact X).
  destruct R as (R1 & R2 & R3 & R4 & R5 & _). cbn [im_id im_flags im_magzp im_scale im_offset] in *.
  unfold coadd_recorded. rewrite R1, R2, R3, R4, R5. split; [|repeat (split; [assumption|]); assumption].
  unfold whole_key, getv in X1. rewrite Id in X1. cbn in X1. apply Ok_inj in X1. congruence.
Qed.

(** All the rows at once. *)
Lemma image_table_recorded wcs_text cfg i (t : @entries F W A G) c l rows :
  handed_over cfg i t -> im_coadd wcs_text (en_coadd t) = Ok c -> mapM (im_view wcs_text) (en_src t) = Ok l ->
  build_image_info c l = Ok rows ->
  exists r rest, rows = r :: rest /\ coadd_recorded (in_coadd i) r /\ length rest = length (in_src i) /\
  forall n d, nth_error (in_src i) n = Some d -> exists x, nth_error rest n = Some x /\ source_recorded cfg n d x.
Proof.
  intros (Hc & Hlen & Hs) Ec El Eb. apply mapM_ok in El.
  assert (Hw : all_wcs c l).
  { unfold build_image_info in Eb. apply bind_ok in Eb as (cw & Ecw & Eb). apply bind_ok in Eb as (sw & Esw & _).
    apply mapM_ok in Esw. intros e [<-|He]; [eauto|]. apply In_nth_error in He as [n He].
    destruct (Forall2_nth _ _ _ Esw _ _ He) as (w & _ & Hw). eauto. }
  assert (Hne : l <> []).
  { intros ->. destruct (Hw c (or_introl eq_refl)) as [w Ew]. rewrite (info_empty c w Ew) in Eb. discriminate. }
  assert (Hg : good_ids c l).
  { split.
    - unfold im_coadd in Ec. apply bind_ok in Ec as (x1 & X1 & Ec). repeat (apply bind_ok in Ec as (? & _ & Ec)).
      apply Ok_inj in Ec. subst c. cbn [im_id]. unfold whole_key, getv in X1. rewrite (proj2 Hc) in X1. cbn in X1.
      apply Ok_inj in X1. congruence.
    - intros n e He. destruct (nth_error (en_src t) n) as [d'|] eqn:Ed.
      + destruct (Forall2_nth _ _ _ El _ _ Ed) as (e' & He' & Ee). assert (e' = e) by congruence. subst e'.
        destruct (nth_error (in_src i) n) as [d|] eqn:Edn.
        * destruct (Hs n d Edn) as (d2 & N2 & (_ & Id & _)). assert (d2 = d') by congruence. subst d2.
          unfold im_view in Ee. apply bind_ok in Ee as (x1 & X1 & Ee). repeat (apply bind_ok in Ee as (? & _ & Ee)).
          apply Ok_inj in Ee. subst e. cbn [im_id]. unfold whole_key, getv in X1. rewrite Id in X1. cbn in X1.
          apply Ok_inj in X1. congruence.
        * apply nth_error_None in Edn. assert (n < length (en_src t))%nat; [|lia]. apply nth_error_Some. congruence.
      + apply nth_error_None in Ed. assert (n < length l)%nat; [apply nth_error_Some; congruence|].
        rewrite <- (Forall2_len _ _ _ El) in H. lia. }
  destruct (info_core c l Hw Hne) as (r0 & rest & R0 & Rs & K & _). rewrite (K Hg) in Eb. apply Ok_inj in Eb. subst rows.
  exists r0, rest. split; [reflexivity|]. split; [exact (im_coadd_row _ _ _ _ _ Hc Ec R0)|]. split.
  { rewrite <- (Forall2_len _ _ _ Rs), <- (Forall2_len _ _ _ El). exact Hlen. }
  intros n d Hd. destruct (Hs n d Hd) as (d' & Nd & Hd'). destruct (Forall2_nth _ _ _ El _ _ Nd) as (e & Ne & Ee).
  destruct (Forall2_nth _ _ _ Rs _ _ Ne) as (x & Nx & Rx). exists x. split; [exact Nx|].
  exact (im_view_row _ _ _ _ _ _ _ Hd' Ee Rx).
Qed.

End P.

(** ** The files *)
Section Frame.
Context {C : Type}.

Lemma make_slices_files_frame (s : fsys C) w mp tmpdir rm s' r :
  make_slices_files s w mp tmpdir rm = (s', r) ->
  forall q, q <> add_fz mp -> q <> (staging_dir tmpdir (fst mp), snd mp) ->
  q <> add_fz (staging_dir tmpdir (fst mp), snd mp) -> file s' q = file s q.
Proof.
  intros H q Q1 Q2 Q3. unfold make_slices_files in H. fold (add_fz mp) in H.
  set (s1 := run s (try_makedir s (fst mp))) in *.
  assert (F1 : file s1 = file s) by apply mk_file.
  destruct (so_init s1 (add_fz mp) tmpdir false) as [ops st] eqn:EI.
  assert (F2 : file (run s1 ops) = file s) by (rewrite (so_init_file _ _ _ _ _ _ EI); auto).
  set (s2 := run s1 ops) in *.
  destruct (so_init_inv _ _ _ _ _ _ EI) as (Hf & Hm & Hws & Hp & Ht).
  assert (HR : so_reach C (add_fz mp) tmpdir false st) by (econstructor; exact EI).
  assert (P : so_path st = add_fz (staging_dir tmpdir (fst mp), snd mp)).
  { rewrite Hp. destruct tmpdir; [reflexivity|]. destruct mp; reflexivity. }
  assert (N1 : q <> (fst (so_path st), snd mp)) by (rewrite P; exact Q2).
  assert (N2 : q <> so_path st) by (rewrite P; exact Q3).
  assert (Set_ : forall (x : fsys C) c p, q <> p -> file (apply x (Put p c)) q = file x q).
  { intros x c p N. cbn [apply file]. apply set_other. auto. }
  assert (Rem_ : forall (x : fsys C) p, q <> p -> file (apply x (Remove p)) q = file x q).
  { intros x p N. cbn [apply file]. apply set_other. auto. }
  destruct (w_fits w) as [c|e].
  - set (s3 := apply s2 (Put _ c)) in *. assert (E3 : file s3 q = file s q).
    { unfold s3. rewrite Set_ by exact N1. rewrite F2. reflexivity. }
    set (s4 := if exists_file s3 (so_path st) then _ else _) in *. assert (E4 : file s4 q = file s q).
    { unfold s4. destruct (exists_file _ _); [rewrite Rem_ by exact N2|]; exact E3. }
    set (s5 := match w_fpack_out w with Some _ => _ | None => _ end) in *. assert (E5 : file s5 q = file s q).
    { unfold s5. destruct (w_fpack_out w); [rewrite Set_ by exact N2|]; exact E4. }
    set (s6 := if w_fpack_ok w && rm then _ else _) in *. assert (E6 : file s6 q = file s q).
    { unfold s6. destruct (_ && _); [rewrite Rem_ by exact N1|]; exact E5. }
    destruct (stage_out s6 (w_device w) st) as [ops' r'] eqn:ES.
    assert (K : file (run s6 ops') q = file s q).
    { rewrite (stage_out_frame _ _ _ _ HR _ _ _ _ _ q ES (crash_full _ _) N2 Q1). exact E6. }
    destruct r'; [destruct (file (run s6 ops') (add_fz mp))|]; inversion H; subst; exact K.
  - set (s3 := match w_partial_fits w with Some _ => _ | None => _ end) in *. assert (E3 : file s3 q = file s q).
    { unfold s3. destruct (w_partial_fits w); [rewrite Set_ by exact N1|]; rewrite F2; reflexivity. }
    destruct (stage_out s3 (w_device w) st) as [ops' r'] eqn:ES.
    inversion H; subst. rewrite (stage_out_frame _ _ _ _ HR _ _ _ _ _ q ES (crash_full _ _) N2 Q1). exact E3.
Qed.
End Frame.

(** ** A tile that was prepared *)
Section Accept.
Context {F : Type} {FO : FloatOps F} {W A G : Type}.
Notation value := (@value F W A G).
Notation as_read := (@as_read F W A G).
Variables (header_wcs : value -> value -> result W) (affine_wcs : value -> result A) (gsobject : value -> result G).

Lemma load_coadd_works d p x w l : dget d "path" <> None -> dget d "filename" <> None ->
  dget d "image_path" = Some p -> dget d "image_ext" = Some x -> header_wcs p x = Ok w ->
  dget d "affine_wcs_config" = None -> dget d "image_shape" = Some (Plain (VShape l)) ->
  exists d', load_coadd header_wcs affine_wcs d = Ok d'.
Proof.
  intros H1 H2 H3 H4 H5 H6 H7. unfold load_coadd, getv.
  destruct (dget d "path"); [|congruence]. destruct (dget d "filename"); [|congruence]. rewrite H3, H4. cbn [bind].
  rewrite H5. cbn [bind]. unfold load_affine. rewrite dget_dset. cbn [String.eqb Ascii.eqb Bool.eqb]. rewrite H6. cbn [bind].
  unfold shape_tuple. rewrite !dget_dset. cbn [String.eqb Ascii.eqb Bool.eqb]. rewrite H7. eauto.
Qed.

Lemma load_entry_works n (d : dict value) l : dget d "image_shape" = Some (Plain (VShape l)) ->
  dget d "affine_wcs_config" = None -> dget d "galsim_psf_config" = None ->
  exists d', load_entry affine_wcs gsobject n d = Ok d'.
Proof.
  intros H1 H2 H3. unfold load_entry, shape_tuple. rewrite dget_dset. cbn [String.eqb Ascii.eqb Bool.eqb]. rewrite H1. cbn [bind].
  unfold load_affine. rewrite !dget_dset. cbn [String.eqb Ascii.eqb Bool.eqb]. rewrite H2. cbn [bind].
  rewrite !dget_dset. cbn [String.eqb Ascii.eqb Bool.eqb]. rewrite H3. eauto.
Qed.

Lemma load_entries_work : forall l n, (forall d, In d l -> forall n, exists d', load_entry affine_wcs gsobject n d = Ok d') ->
  exists l', load_entries affine_wcs gsobject n l = Ok l'.
Proof.
  induction l as [|d l IH]; intros n H; cbn [load_entries]; [eauto|].
  destruct (H d (or_introl eq_refl) n) as [d' ->]. cbn [bind].
  destruct (IH (n + 1)) as [l' ->]; [intros x Hx; apply H; right; exact Hx|]. cbn [bind]. eauto.
Qed.

Lemma flag_entry_works cfg (d : dict value) f n : dget d "image_flags" = Some (Plain (VInt f)) ->
  dget d "ccdnum" = Some (Plain (VInt n)) -> dget d "path" <> None -> dget d "filename" <> None ->
  exists d', flag_entry (Some cfg) d = Ok d'.
Proof.
  intros H1 H2 H3 H4. unfold flag_entry.
  assert (X : si_flags (src_view d) = Some f) by (cbn; unfold int_key; rewrite H1; reflexivity).
  assert (Y : si_ccdnum (src_view d) = Some n) by (cbn; unfold int_key; rewrite H2; reflexivity).
  assert (Z : si_logged (src_view d) = true).
  { cbn. unfold has. destruct (dget d "path"); [|congruence]. destruct (dget d "filename"); [|congruence]. reflexivity. }
  generalize dependent (src_view d). intros s X Y Z.
  assert (P : exists s1 f1, flag_piff (Some cfg) s = (s1, None) /\ si_flags s1 = Some f1 /\ si_ccdnum s1 = Some n).
  { unfold flag_piff. destruct (sc_cuts cfg); [|eauto]. destruct (si_piff s); [|eauto]. rewrite X. cbn [si_logged set_flags].
    rewrite Z. cbn [negb]. rewrite andb_false_r. eexists. eexists. split; [reflexivity|]. split; [reflexivity|exact Y]. }
  destruct P as (s1 & f1 & P1 & P2 & P3). unfold flag_source. rewrite P1. unfold flag_ccd. rewrite P2, P3.
  destruct (sc_ignored cfg); [|eauto]. destruct (existsb _ _); eauto.
Qed.

Lemma mapM_total {X Y} (f : X -> result Y) l : (forall x, In x l -> exists y, f x = Ok y) -> exists l', mapM f l = Ok l'.
Proof.
  induction l as [|x l IH]; intros H; cbn [mapM]; [eauto|]. destruct (H x (or_introl eq_refl)) as [y ->]. cbn [bind].
  destruct IH as [l' ->]; [intros z Hz; apply H; right; exact Hz|]. cbn [bind]. eauto.
Qed.

(** What is there after the preparation. *)
Lemma prepared_coadd pow10 piff_rows geom_rows camp i0 (i : info F) :
  add_extra pow10 piff_rows geom_rows camp i0 = Ok i ->
  dget (in_coadd i) "image_flags" = Some (VInt 0) /\ dget (in_coadd i) "magzp" = Some (VNum (fofZ 30)) /\
  dget (in_coadd i) "scale" = Some (VNum (fofZ 1)) /\ dget (in_coadd i) "position_offset" = Some (VInt 1) /\
  dget (in_coadd i) "image_shape" = Some (VShape [10000; 10000]) /\ dget (in_coadd i) "image_ext" = Some (VText "sci") /\
  dget (in_coadd i) "tilename" <> None.
Proof.
  intros H. apply add_extra_spec in H as [H _]. rewrite prep_coadd_eq in H.
  destruct (dget (in_coadd i0) "image_path") as [p|]; [|discriminate].
  destruct (dget (in_coadd i0) "tilename") as [t|] eqn:Et; [|discriminate].
  apply bind_ok in H as ([|g rows] & _ & H); [discriminate|]. apply Ok_inj in H. rewrite <- H.
  rewrite !dupdate_get by apply coadd_nodup.
  do 6 (split; [reflexivity|]). cbn. rewrite Et. discriminate.
Qed.

Lemma prepared_source pow10 piff_rows geom_rows camp i0 (i : info F) d :
  add_extra pow10 piff_rows geom_rows camp i0 = Ok i -> In d (in_src i) ->
  dget d "image_flags" = Some (VInt 0) /\ (exists m x, dget d "magzp" = Some m /\ number m = Ok x) /\
  (exists s, dget d "scale" = Some (VNum s)) /\ dget d "position_offset" = Some (VInt 1) /\
  dget d "image_shape" = Some (VShape [4096; 2048]) /\
  dget d "image_ext" = Some (VText "sci") /\ dget d "weight_ext" = Some (VText "wgt") /\
  dget d "bmask_ext" = Some (VText "msk") /\ dget d "bkg_ext" = Some (VText "sci") /\
  dget d "weight_path" = dget d "image_path" /\ dget d "bmask_path" = dget d "image_path".
Proof.
  intros H Hd. apply add_extra_spec in H as [_ H].
  assert (E : exists d0, prep_source pow10 piff_rows camp d0 = Ok d).
  { clear - H Hd. induction H as [|a b l l' X _ IH]; [destruct Hd|]. destruct Hd as [<-|Hd]; [eauto|exact (IH Hd)]. }
  destruct E as [d0 E]. apply prep_source_spec in E as (p & q & m & x & s & ql & Hp & Hq & Hm & Hx & Hs & Hl & ->).
  assert (N : NoDup (dkeys (all_settings p q s ql))) by (eapply all_nodup; exact Hl).
  rewrite !dupdate_get by exact N. unfold all_settings. rewrite Hm, Hp.
  split; [reflexivity|]. split; [exists m, x; split; [destruct Hl; reflexivity|exact Hx]|].
  split; [exists s; reflexivity|]. do 6 (split; [reflexivity|]). destruct Hl; split; reflexivity.
Qed.

End Accept.
