(** C83: the command line tool, from the two input files to the output file. *)
From Coq Require Import ZArith List Bool String Lia.
From Coq Require Import List.
From Verif Require Import Lib.Base Lib.Floats Lib.PyStr Lib.PyText Lib.PyDict Model.Files Model.SliceRange
  Model.ImageInfo Model.ObjectData Model.Writer Model.Metadata Model.Main Model.Piff Model.DesInfo Model.Cli
  Model.TileInfo Spec.LoadInfoSpec Model.Go Spec.PiffSpec Spec.DesInfoSpec Spec.TileInfoSpec Spec.FilesSpec Spec.MetadataSpec Spec.CliSpec
  Spec.GoSpec
  Proofs.SliceInputsProofs Proofs.LoadInfoProofs Proofs.PiffProofs Proofs.DesInfoProofs Proofs.FilesProofs
  Proofs.MetadataProofs Proofs.TileInfoProofs Proofs.CliProofs Proofs.GoProofs Props.PropFiles Props.PropMetadata Props.PropTileInfo.
Import ListNotations.
Open Scope string_scope.
Open Scope list_scope.
Open Scope Z_scope.

Section C83.
Context {F : Type} {FO : FloatOps F} {W A G : Type}.
Notation value := (@value F W A G).
Notation entries := (@entries F W A G).
Variables (header_wcs : value -> value -> result W) (affine_wcs : value -> result A) (gsobject : value -> result G)
          (pop first : list string -> string)
          (wcs_text : dict value -> result string)
          (coadd_header : dict value -> result (option Z * option Z))
          (level : string -> result Z) (read : string -> result text)
          (parse_config : text -> result (@config F)) (parse_info : text -> result (info F))
          (dumps : info F -> result text) (expand : string -> path).
Hypotheses (pop_picks : picks pop) (first_picks : picks first).
Notation inputs := (inputs read parse_config parse_info).
Notation go_plan := (go_plan header_wcs affine_wcs gsobject pop first wcs_text coadd_header level read
                       parse_config parse_info dumps expand).

Variables (V E E' Stars : Type)
          (env : string -> option text) (ver : string -> text)
          (image2sky : value -> F -> F -> result (F * F))
          (get_jacobian : value -> F -> F -> result (F * F * F * F))
          (work : entries -> @config F -> @args F value -> @Main.prepared F value -> result (@out F V E))
          (combine_epochs : list E -> result E')
          (read_stars : string -> value -> Z -> result Stars)
          (C : Type) (bytes : @fits_file F V E' Stars -> C) (partial : option C) (fpack : C -> bool * option C)
          (valid : C -> bool) (dev : device C).
Notation make_slices t cfg := (make_slices V E E' Stars value env ver image2sky get_jacobian (work t cfg) combine_epochs
                           read_stars C bytes partial fpack valid dev).
Notation go := (go header_wcs affine_wcs gsobject pop first wcs_text coadd_header level read parse_config parse_info
                  dumps expand V E E' Stars env ver image2sky get_jacobian work combine_epochs read_stars
                  C bytes partial fpack valid dev).
Notation main := (main header_wcs affine_wcs gsobject pop first wcs_text coadd_header level read parse_config parse_info
                  dumps expand V E E' Stars env ver image2sky get_jacobian work combine_epochs read_stars
                  C bytes partial fpack valid dev).

Lemma key_some {X} (o : option X) v : key o = Ok v -> o = Some v.
Proof. destruct o; [intros H; apply Ok_inj in H; subst; reflexivity|discriminate]. Qed.

Lemma plan_inv o a out t cfg : go_plan o = Ok (a, out, t, cfg) ->
  exists config_text i json tv bv p cc se t1,
  level (upper (op_log_level o)) <> Raise OtherError /\ (exists l, level (upper (op_log_level o)) = Ok l) /\
  inputs o config_text cfg i /\ dumps i = Ok json /\
  dget (in_coadd i) "tilename" = Some tv /\ dget (in_coadd i) "band" = Some bv /\
  load header_wcs affine_wcs gsobject (mkent (as_read (in_coadd i)) (map as_read (in_src i))) = Ok t1 /\
  flag_data (Some se) t1 = Ok t /\
  sane i /\
  meds_path (op_output o) (op_config o) (op_tag o) (op_range o)
    (match tv with VText s => s | _ => "" end) (match bv with VText s => s | _ => "" end) = Ok p /\ out = expand p /\
  cf_coadd cfg = Some cc /\ cf_single_epoch cfg = Some se /\
  slice_args wcs_text coadd_header t cc config_text json (op_range o) (op_n_extra o) = Ok a.
Proof.
  unfold Go.go_plan. intros H.
  apply bind_ok in H as (l & Hl & H). apply bind_ok in H as (ct & Hct & H). apply bind_ok in H as (cfg' & Hcfg & H).
  apply bind_ok in H as (it & Hit & H). apply bind_ok in H as (i & Hi & H).
  apply bind_ok in H as (tv & Htv & H). apply bind_ok in H as (bv & Hbv & H). apply bind_ok in H as (json & Hj & H).
  cbv zeta in H. apply bind_ok in H as (t1 & Ht1 & H). apply bind_ok in H as (t2 & Ht2 & H).
  apply bind_ok in H as ([] & Hch & H). apply bind_ok in H as (p & Hp & H). apply bind_ok in H as (cc & Hcc & H).
  apply bind_ok in H as (se & Hse & H). apply bind_ok in H as (a' & Ha & H). apply Ok_inj in H.
  injection H as <- <- <- <-. apply key_some in Hcc, Hse. rewrite Hse in Ht2.
  exists ct, i, json, tv, bv, p, cc, se, t1.
  split; [congruence|]. split; [eauto|]. split; [split; [exact Hct|split; [exact Hcfg|eauto]]|]. split; [exact Hj|].
  unfold getk in Htv, Hbv. destruct (dget (in_coadd i) "tilename"); [apply Ok_inj in Htv; subst|discriminate].
  destruct (dget (in_coadd i) "band"); [apply Ok_inj in Hbv; subst|discriminate].
  do 2 (split; [reflexivity|]). split; [exact Ht1|]. split; [exact Ht2|]. split.
  { unfold check in Hch. rewrite (load_flag_view _ _ _ _ _ _ _ Ht1 Ht2) in Hch. apply (proj1 (@check_sane F FO W A G pop first i pop_picks first_picks)).
    exact Hch. }
  split; [exact Hp|]. split; [reflexivity|]. split; [exact Hcc|]. split; [exact Hse|exact Ha].
Qed.

Lemma named_plan o (i : info F) tv bv p : sane i -> dget (in_coadd i) "tilename" = Some tv ->
  dget (in_coadd i) "band" = Some bv ->
  meds_path (op_output o) (op_config o) (op_tag o) (op_range o)
    (match tv with VText s => s | _ => "" end) (match bv with VText s => s | _ => "" end) = Ok p ->
  named_output o i p.
Proof.
  intros (v & tile & band & Hd & _) Ht Hb Hp. destruct Hd as (_ & _ & _ & _ & _ & _ & _ & Hd & _).
  assert (bv = VText (ti_band v)) by (unfold text_at in Hd; congruence). subst bv.
  exists tv, (ti_band v). split; [exact Ht|]. split; [exact Hd|]. intros t ->. exact Hp.
Qed.

Lemma args_for_plan se i t t1 cc ct json o a :
  load header_wcs affine_wcs gsobject (mkent (as_read (in_coadd i)) (map as_read (in_src i))) = Ok t1 ->
  flag_data (Some se) t1 = Ok t ->
  slice_args wcs_text coadd_header t cc ct json (op_range o) (op_n_extra o) = Ok a ->
  args_for i t cc ct json o a.
Proof.
  intros H1 H2 H. destruct (load_flag_handed _ _ _ _ _ _ _ H1 H2) as [[K _] _].
  unfold slice_args in H. apply bind_ok in H as (c & _ & H). apply bind_ok in H as (l & _ & H). apply Ok_inj in H. subst a.
  unfold args_for. cbn [a_config a_json a_central a_buffer a_psf_box a_wcs a_shape a_offset a_stars a_slices a_n_extra].
  unfold int_key. rewrite !K by (cbn; intros X; repeat (destruct X as [X|X]; [discriminate|]); exact X).
  repeat (split; [reflexivity|]).
  split; [intros w ->; reflexivity|]. split; [intros r c' ->; reflexivity|]. split; [intros z ->; reflexivity|].
  split; [intros z ->; reflexivity|]. split; [intros [-> | ->]; reflexivity|]. split; reflexivity.
Qed.

(** C83: what a run works with. It ends before anything is changed, or else the
    files could be read, the description in the file passed the checks, and
    make_des_pizza_slices is called once, for the dictionaries of the file with the
    flags that are due, with the text of the configuration file and with the
    description as it was in the file. *)
Theorem C83_what_a_run_works_with :
  forall s o tmpdir s' r, go s o tmpdir = (s', r) ->
  (s' = s /\ exists e, r = Raise e) \/
  exists config_text cfg i json se cc t a p,
  inputs o config_text cfg i /\ dumps i = Ok json /\ sane i /\
  cf_single_epoch cfg = Some se /\ cf_coadd cfg = Some cc /\
  handed_over se i t /\ args_for i t cc config_text json o a /\
  named_output o i p /\
  (s', r) = make_slices t cfg s a (expand p) tmpdir
              (negb (String.eqb (upper (op_log_level o)) "DEBUG" && match tmpdir with None => true | Some _ => false end)).
Proof.
  intros s o tmpdir s' r H. unfold Go.go in H. destruct (go_plan o) as [[[[a out] t] cfg]|e] eqn:Ep.
  2:{ injection H as <- <-. left. split; [reflexivity|eauto]. }
  right. destruct (plan_inv _ _ _ _ _ Ep) as (ct & i & json & tv & bv & p & cc & se & t1 & _ & _ & Hin & Hj & Htv & Hbv & H1
    & H2 & Hs & Hp & -> & Hcc & Hse & Ha).
  pose proof (named_plan _ _ _ _ _ Hs Htv Hbv Hp) as Hn.
  exists ct, cfg, i, json, se, cc, t, a, p. split; [exact Hin|]. split; [exact Hj|]. split; [exact Hs|].
  split; [exact Hse|]. split; [exact Hcc|]. split; [exact (load_flag_handed _ _ _ _ _ _ _ H1 H2)|].
  split; [exact (args_for_plan _ _ _ _ _ _ _ _ _ H1 H2 Ha)|]. split; [exact Hn|]. rewrite <- H. unfold remove_fits_file.
  destruct (_ && _); reflexivity.
Qed.

(** C83: input that cannot be used changes nothing. *)
Theorem C83_unusable_input_changes_nothing :
  forall s o tmpdir,
  ((exists e, level (upper (op_log_level o)) = Raise e) \/
   ~ (exists config_text cfg i, inputs o config_text cfg i) \/
   (exists config_text cfg i, inputs o config_text cfg i /\
      (cf_coadd cfg = None \/ cf_single_epoch cfg = None \/ (exists e, dumps i = Raise e) \/ ~ sane i \/
       dget (in_coadd i) "tilename" = None \/ dget (in_coadd i) "path" = None \/ dget (in_coadd i) "filename" = None \/
       (dget (in_coadd i) "affine_wcs_config" = None /\
        forall p x w, dget (in_coadd i) "image_path" = Some p -> dget (in_coadd i) "image_ext" = Some x ->
          header_wcs (Plain p) (Plain x) <> Ok w) \/
       (exists se ccds d, cf_single_epoch cfg = Some se /\ sc_ignored se = Some ccds /\ In d (in_src i) /\
          dget d "ccdnum" = None) \/
       (exists se cuts d m k, cf_single_epoch cfg = Some se /\ sc_cuts se = Some cuts /\ In d (in_src i) /\
          dget d "piff_info" = Some (VPiff m) /\ 0 <= k /\ piff_cut_fails (pr_info m) cuts k /\
          (dget d "path" = None \/ dget d "filename" = None)))) \/
   (directory (op_output o) /\ exists text, op_range o = Some text /\ ~ exists first stop, reads_range text first stop)) ->
  exists e, go s o tmpdir = (s, Raise e).
Proof.
  intros s o tmpdir H. unfold Go.go. destruct (go_plan o) as [[[[a out] t] cfg]|e] eqn:Ep; [exfalso|eauto].
  destruct (plan_inv _ _ _ _ _ Ep) as (ct & i & json & tv & bv & p & cc & se & t1 & _ & [l Hl] & Hin & Hj & Htv & Hbv & H1
    & H2 & Hs & Hp & -> & Hcc & Hse & Ha). clear Ep Ha.
  destruct H as [[e H]|[H|[H|H]]].
  - congruence.
  - apply H. eauto.
  - destruct H as (ct' & cfg' & i' & Hin' & H).
    assert (E1 : cfg' = cfg /\ i' = i).
    { destruct Hin as (X1 & X2 & it & X3 & X4). destruct Hin' as (Y1 & Y2 & it' & Y3 & Y4).
      rewrite X1 in Y1. apply Ok_inj in Y1. subst. rewrite X3 in Y3. apply Ok_inj in Y3. subst.
      split; apply Ok_inj; congruence. }
    destruct E1 as [-> ->].
    assert (L : exists d', load_coadd header_wcs affine_wcs (as_read (in_coadd i)) = Ok d').
    { unfold load in H1. cbn [en_coadd en_src] in H1. apply bind_ok in H1 as (d' & H1 & _). eauto. }
    destruct L as [d' L]. apply load_coadd_same in L as (_ & _ & L1 & L2 & L3). rewrite as_read_get in L1, L2.
    destruct H as [H|[H|[[e H]|[H|[H|[H|[H|[H|[H|H]]]]]]]]]; try congruence.
    + rewrite H in L1. apply L1. reflexivity.
    + rewrite H in L2. apply L2. reflexivity.
    + destruct H as [Na H]. destruct L3 as [(q & x & w & Q1 & Q2 & Q3 & _)|[L3 _]].
      * rewrite as_read_get in Q1, Q2. destruct (dget (in_coadd i) "image_path") as [q'|]; [|discriminate].
        destruct (dget (in_coadd i) "image_ext") as [x'|]; [|discriminate]. injection Q1 as <-. injection Q2 as <-.
        exact (H _ _ w eq_refl eq_refl Q3).
      * rewrite as_read_get, Na in L3. apply L3. reflexivity.
    + destruct H as (se' & ccds & d & Hse' & Hi & Hd & Hn). assert (se' = se) by congruence. subst se'.
      destruct Hs as (v & tile & band & Hd' & _). destruct Hd' as (_ & _ & _ & _ & _ & _ & _ & _ & Hd').
      apply In_nth_error in Hd as [n Hd]. destruct (Forall2_nth _ _ _ Hd' _ _ Hd) as (e & _ & He).
      destruct He as (_ & _ & _ & He & _). unfold whole_at in He. congruence.
    + destruct H as (se' & cuts & d & m & k & Hse' & Hc & Hd & Hm & Hk & Hf & Hn).
      assert (se' = se) by congruence. subst se'.
      destruct (load_flag_logged _ _ _ _ _ _ _ H1 H2 _ _ _ _ Hd Hc Hm Hk Hf) as [N1 N2]. destruct Hn; contradiction.
  - destruct H as [D (text & Et & Hr)]. unfold meds_path in Hp. rewrite Et in Hp.
    destruct (endswith ".fits" (op_output o)) eqn:E1.
    { apply endswith_iff in E1. destruct D as [D _]. exact (D E1). }
    destruct (endswith ".fits.fz" (op_output o)) eqn:E2.
    { apply endswith_iff in E2. destruct D as [_ D]. exact (D E2). }
    apply bind_ok in Hp as (rend & Hp & _). apply range_end_ok in Hp as (b & c & Hp & _).
    apply Hr. exists b, c. exact Hp.
Qed.

Lemma make_slices_inv t cfg s a mp tmpdir rm s' : make_slices t cfg s a mp tmpdir rm = (s', Ok tt) ->
  exists p f, prepare value env ver image2sky get_jacobian a = Ok p /\
  whole_file V E E' Stars value (work t cfg) combine_epochs read_stars a p = Ok f /\
  exists w, w_fits w = Ok (bytes f) /\ w_fpack_out w = snd (fpack (bytes f)) /\ w_valid w = valid /\
  make_slices_files s w mp tmpdir rm = (s', Ok tt).
Proof.
  unfold Main.make_slices. intros H. destruct (prepare _ _ _ _ _ a) as [p|e]; [|discriminate].
  destruct (whole_file _ _ _ _ _ _ _ _ a p) as [f|e] eqn:Ef.
  - exists p, f. split; [reflexivity|]. split; [exact Ef|]. cbn [bind] in H. destruct (fpack (bytes f)) as [ok packed].
    eexists. split; [|split; [|split; [|exact H]]]; reflexivity.
  - cbn [bind] in H. apply C28_exception_propagates with (e := e) in H; [discriminate|reflexivity].
Qed.

(** C83: what a run that ends normally has recorded: the text of the configuration
    file, the description of the tile as it was in the file, and one row for the
    coadd and for each source, with the flags of the file and those that are due. *)
Theorem C83_recorded :
  forall s o tmpdir s', go s o tmpdir = (s', Ok tt) ->
  exists config_text cfg i json se p f meta rows,
  inputs o config_text cfg i /\ dumps i = Ok json /\ cf_single_epoch cfg = Some se /\ named_output o i p /\
  In ("metadata", CMeta V E' Stars meta) f /\ In ("tile_info", CBytes V E' Stars json) f /\
  In ("image_info", CImages V E' Stars rows) f /\
  (no_final_nul config_text -> exists c, dget (md_cols meta) "config" = Some c /\ ucol_get c = config_text) /\
  (exists r rest, rows = r :: rest /\ coadd_recorded (in_coadd i) r /\ length rest = length (in_src i) /\
   forall n d, nth_error (in_src i) n = Some d -> exists x, nth_error rest n = Some x /\ source_recorded se n d x) /\
  match snd (fpack (bytes f)) with
  | Some c => file s' (add_fz (expand p)) = Some c /\ valid c = true
  | None => (exists d, tmpdir = Some d /\ d <> fst (expand p)) /\
            file s' (add_fz (expand p)) = file s (add_fz (expand p))
  end.
Proof.
  intros s o tmpdir s' H. unfold Go.go in H. destruct (go_plan o) as [[[[a out] t] cfg]|e] eqn:Ep; [|discriminate].
  destruct (plan_inv _ _ _ _ _ Ep) as (ct & i & json & tv & bv & p & cc & se & t1 & _ & _ & Hin & Hj & Htv & Hbv & H1
    & H2 & Hs & Hp & -> & Hcc & Hse & Ha). clear Ep.
  destruct (make_slices_inv _ _ _ _ _ _ _ _ H) as (pr & f & Epr & Ef & w & W1 & W2 & W3 & HF).
  destruct (args_for_plan _ _ _ _ _ _ _ _ _ H1 H2 Ha) as (Ac & Aj & _).
  unfold prepare in Epr. apply bind_ok in Epr as ([meta b] & Em & Epr). apply bind_ok in Epr as (ii & Ei & Epr).
  repeat (apply bind_ok in Epr as (? & _ & Epr)). apply Ok_inj in Epr. subst pr.
  rewrite Ac, Aj in Em. assert (Eb : b = json).
  { pose proof (C77_tile_information_kept _ _ _ _ _ _ _ _ Em) as [X _]. exact X. }
  subst b.
  assert (Hf : In ("metadata", CMeta V E' Stars meta) f /\ In ("tile_info", CBytes V E' Stars json) f /\
               In ("image_info", CImages V E' Stars ii) f).
  { unfold whole_file in Ef. apply bind_ok in Ef as (f0 & _ & Ef). cbn [p_meta p_bytes p_images] in Ef.
    assert (X : forall y, In y [("metadata", CMeta V E' Stars meta); ("tile_info", CBytes V E' Stars json);
      ("image_info", CImages V E' Stars ii)] -> In y f).
    { intros y Hx. assert (Y : In y (((f0 ++ [("metadata", CMeta V E' Stars meta)]) ++
          [("tile_info", CBytes V E' Stars json)]) ++ [("image_info", CImages V E' Stars ii)])).
      { rewrite <- !app_assoc. apply in_or_app. right. exact Hx. }
      destruct (a_stars value a).
      - apply bind_ok in Ef as (st & _ & Ef). apply Ok_inj in Ef. subst f. apply in_or_app. left. exact Y.
      - apply Ok_inj in Ef. subst f. exact Y. }
    split; [|split]; apply X; cbn; auto. }
  exists ct, cfg, i, json, se, p, f, meta, ii. split; [exact Hin|]. split; [exact Hj|]. split; [exact Hse|].
  split; [exact (named_plan _ _ _ _ _ Hs Htv Hbv Hp)|].
  split; [apply Hf|]. split; [apply Hf|]. split; [apply Hf|]. split.
  { intros Hn. destruct (C77_texts_recorded_in_full _ _ _ _ _ _ _ _ Em) as [_ X].
    destruct (X "config" ct ltac:(left; reflexivity)) as (c & Hc & _ & Hg). exists c. split; [exact Hc|]. exact (Hg Hn). }
  split.
  { unfold slice_args in Ha. apply bind_ok in Ha as (ic & Hic & Ha). apply bind_ok in Ha as (is & His & Ha).
    apply Ok_inj in Ha. subst a. cbn [a_coadd a_srcs] in Ei.
    exact (image_table_recorded _ _ _ _ _ _ _ (load_flag_handed _ _ _ _ _ _ _ H1 H2) Hic His Ei). }
  pose proof (C28_outcome C _ _ _ _ _ _ _ _ HF W1) as [X Y]. rewrite W2 in X, Y. rewrite W3 in Y.
  destruct (snd (fpack (bytes f))) as [c|].
  - split; [exact X|]. destruct (valid c); [reflexivity|discriminate].
  - destruct tmpdir as [d|]; [|discriminate]. destruct (String.eqb_spec d (fst (expand p))) as [Ed|Nd].
    + subst d. cbn [negb] in X, Y. discriminate.
    + split; [exists d; split; [reflexivity|exact Nd]|]. exact X.
Qed.

(** C83: with a temporary directory, whatever happens, the directory is gone in the
    end and no file but the output is changed. *)
Theorem C83_temporary_directory :
  forall make s o use_tmpdir tmpdir d s' r,
  use_tmpdir = true \/ tmpdir <> None -> make tmpdir = Ok d ->
  (forall p, fst p = d -> file s p = None) ->
  main make s o use_tmpdir tmpdir = (s', r) ->
  isdir s' d = false /\ (forall p, fst p = d -> file s' p = None) /\
  ((forall p, file s' p = file s p) \/
   exists config_text cfg i p, inputs o config_text cfg i /\ named_output o i p /\
     forall q, fst q <> d -> q <> add_fz (expand p) -> file s' q = file s q) /\
  exists s1, go (apply s (Mkdir d)) o (Some d) = (s1, r) /\ forall q, fst q <> d -> file s' q = file s1 q.
Proof.
  intros make s o use tmpdir d s' r Hu Hm Hn H. unfold Go.main in H.
  assert (U : use || match tmpdir with None => false | Some _ => true end = true).
  { destruct Hu as [->|Hu]; [reflexivity|]. destruct tmpdir; [apply orb_true_r|congruence]. }
  rewrite U, Hm in H. destruct (go (apply s (Mkdir d)) o (Some d)) as [s1 r1] eqn:Eg. injection H as <- <-.
  cbn [rmtree isdir file]. split; [rewrite String.eqb_refl; reflexivity|].
  split; [intros p <-; rewrite String.eqb_refl; reflexivity|].
  assert (R : forall q, fst q <> d -> (if String.eqb (fst q) d then None else file s1 q) = file s1 q).
  { intros q Hq. destruct (String.eqb_spec (fst q) d); [contradiction|reflexivity]. }
  split; [|exists s1; split; [reflexivity|exact R]].
  unfold Go.go in Eg. destruct (go_plan o) as [[[[a out] t] cfg]|e] eqn:Ep.
  - right. destruct (plan_inv _ _ _ _ _ Ep) as (ct & i & json & tv & bv & p & cc & se & t1 & X).
    destruct X as (_ & _ & Hin & _ & Htv & Hbv & _ & _ & Hs & Hp & -> & _).
    exists ct, cfg, i, p. split; [exact Hin|]. split; [exact (named_plan _ _ _ _ _ Hs Htv Hbv Hp)|].
    intros q Hq Hq2. rewrite (R q Hq). unfold Main.make_slices in Eg. destruct (prepare _ _ _ _ _ a) as [pr|e].
    + destruct (whole_file _ _ _ _ _ _ _ _ a pr) as [f|e]; cbn [bind] in Eg.
      * destruct (fpack (bytes f)) as [ok packed]. rewrite (make_slices_files_frame _ _ _ _ _ _ _ Eg q Hq2); [reflexivity| |];
          intros ->; apply Hq; reflexivity.
      * rewrite (make_slices_files_frame _ _ _ _ _ _ _ Eg q Hq2); [reflexivity| |]; intros ->; apply Hq; reflexivity.
    + injection Eg as <- _. reflexivity.
  - left. injection Eg as <- _. intros p. cbn [apply file]. destruct (String.eqb_spec (fst p) d) as [Ed|Nd]; [|reflexivity].
    symmetry. apply Hn. exact Ed.
Qed.
(** C83: without a temporary directory no file is changed but the compressed and the
    uncompressed output. *)
Theorem C83_changes_only_the_output :
  forall s o s' r, go s o None = (s', r) ->
  (forall q, file s' q = file s q) \/
  exists config_text cfg i p, inputs o config_text cfg i /\ named_output o i p /\
    forall q, q <> expand p -> q <> add_fz (expand p) -> file s' q = file s q.
Proof.
  intros s o s' r Eg. unfold Go.go in Eg. destruct (go_plan o) as [[[[a out] t] cfg]|e] eqn:Ep.
  - right. destruct (plan_inv _ _ _ _ _ Ep) as (ct & i & json & tv & bv & p & cc & se & t1 & _ & _ & Hin & _ & Htv & Hbv & _
      & _ & Hs & Hp & -> & _).
    exists ct, cfg, i, p. split; [exact Hin|]. split; [exact (named_plan _ _ _ _ _ Hs Htv Hbv Hp)|].
    intros q Q1 Q2. assert (X : (staging_dir None (fst (expand p)), snd (expand p)) = expand p) by (destruct (expand p); reflexivity).
    unfold Main.make_slices in Eg. destruct (prepare _ _ _ _ _ a) as [pr|e].
    + destruct (whole_file _ _ _ _ _ _ _ _ a pr) as [f|e]; cbn [bind] in Eg.
      * destruct (fpack (bytes f)) as [ok packed]. apply (make_slices_files_frame _ _ _ _ _ _ _ Eg q Q2); rewrite X; assumption.
      * apply (make_slices_files_frame _ _ _ _ _ _ _ Eg q Q2); rewrite X; assumption.
    + injection Eg as <- _. reflexivity.
  - left. injection Eg as <- _. reflexivity.
Qed.

(** C83: the two commands fit together. A description that the preparation of the
    tile has written is accepted, provided that it could be read back, that the
    image of the coadd has a usable header, and that what desmeds delivered has the
    paths of the images and of their backgrounds; whatever order the checks use,
    then or now. The flags that a source gets are exactly those that are due. *)
Theorem C83_prepared_tile_is_accepted :
  forall pop' first' pow10 piff_rows geom_rows env' medsconf tilename band source_dir campaign setup gaia_path clean
    fetch_stars fetch_data get_info dump path i o text config_text cfg cc se json l w,
  picks pop' -> picks first' ->
  In (Dumped path i)
    (fst (prep_tile pow10 piff_rows geom_rows env' medsconf tilename band source_dir campaign setup gaia_path clean
            fetch_stars fetch_data get_info
            (fun i => check pop' first' (mkent (@as_read F W A G (in_coadd i)) (map as_read (in_src i)))) dump false)) ->
  op_info o = path -> read path = Ok text -> parse_info text = Ok i ->
  read (op_config o) = Ok config_text -> parse_config config_text = Ok cfg ->
  cf_coadd cfg = Some cc -> cf_single_epoch cfg = Some se ->
  level (upper (op_log_level o)) = Ok l -> dumps i = Ok json ->
  (forall range, op_range o = Some range -> exists a b, reads_range range a b) ->
  (forall d, In d (in_coadd i :: in_src i) ->
     dget d "path" <> None /\ dget d "filename" <> None /\ dget d "affine_wcs_config" = None) ->
  (forall d, In d (in_src i) -> dget d "galsim_psf_config" = None /\
     (exists p, text_at d "image_path" p) /\ (exists p, text_at d "bkg_path" p)) ->
  (forall p, dget (in_coadd i) "image_path" = Some p -> header_wcs (Plain p) (Plain (VText "sci")) = Ok w) ->
  dget (in_coadd i) "image_path" <> None ->
  exists a out t, go_plan o = Ok (a, out, t, cfg) /\ handed_over se i t /\ args_for i t cc config_text json o a /\
  forall n d, nth_error (in_src i) n = Some d ->
    exists d' f, nth_error (en_src t) n = Some d' /\ dget d' "image_flags" = Some (Plain (VInt f)) /\
    forall k, 0 <= k -> (Z.testbit f k = true <-> bit_due se d k).
Proof.
  intros pop' first' pow10 piff_rows geom_rows env' medsconf tilename band source_dir campaign setup gaia_path clean
    fetch_stars fetch_data get_info dump path i o text ct cfg cc se json l w P1 P2 HD Ho Hr Hpi Hct Hcfg Hcc Hse Hl Hj
    Hrange Hall Hsrc Hhead Himg.
  set (chk := fun i : info F => check pop' first' (mkent (@as_read F W A G (in_coadd i)) (map as_read (in_src i)))) in HD.
  assert (Hop : In (Opened path) (fst (prep_tile pow10 piff_rows geom_rows env' medsconf tilename band source_dir campaign
      setup gaia_path clean fetch_stars fetch_data get_info chk dump false)) /\ exists i0 camp,
      add_extra pow10 piff_rows geom_rows camp i0 = Ok i /\ chk i = Ok tt).
  { revert HD. unfold prep_tile, step, emit. destruct setup as [u|e]; [|intros []]. destruct gaia_path as [g|e]; [|intros []].
    destruct (fetch_stars g); [|intros []]. destruct fetch_data as [u1|e]; [|cbn; intros [H|[]]; discriminate].
    destruct get_info as [i0|e]; [|cbn; intros [H|[H|[]]]; discriminate].
    destruct campaign as [c|]; [|cbn; intros [H|[H|[]]]; discriminate].
    destruct (add_extra _ _ _ _ _) as [i'|e] eqn:Ei; [|cbn; intros [H|[H|[]]]; discriminate].
    destruct (chk i') as [[]|e] eqn:Ec; [|cbn; intros [H|[H|[]]]; discriminate].
    destruct (info_file _ _ _ _) as [p|e]; [|cbn; intros [H|[H|[]]]; discriminate].
    destruct (dump i') as [u2|e]; [|cbn; intros [H|[H|[H|[]]]]; discriminate].
    cbn. intros [H|[H|[H|[H|[]]]]]; try discriminate. injection H as -> ->. split; [tauto|]. eauto. }
  destruct Hop as (_ & i0 & camp & Hadd & Hchk). unfold chk in Hchk.
  pose proof (proj1 (@check_sane F FO W A G pop' first' i P1 P2) Hchk) as Hsane. clear HD Hchk chk.
  destruct (prepared_coadd _ _ _ _ _ _ Hadd) as (C1 & C2 & C3 & C4 & C5 & C6 & C7).
  destruct (dget (in_coadd i) "image_path") as [ipath|] eqn:Eip; [|congruence].
  destruct (dget (in_coadd i) "tilename") as [tv|] eqn:Etv; [|congruence].
  destruct Hsane as (v & tile & bnd & Hdesc & Hcons).
  assert (Hb : dget (in_coadd i) "band" = Some (VText (ti_band v))).
  { destruct Hdesc as (_ & _ & _ & _ & _ & _ & _ & X & _). exact X. }
  (* loading *)
  destruct (Hall (in_coadd i) (or_introl eq_refl)) as (A1 & A2 & A3).
  destruct (load_coadd_works header_wcs affine_wcs (as_read (in_coadd i)) (Plain ipath) (Plain (VText "sci")) w [10000; 10000])
    as [c' Ec]; rewrite ?as_read_get, ?Eip, ?C6, ?A3, ?C5; try reflexivity.
  { destruct (dget (in_coadd i) "path"); [discriminate|congruence]. }
  { destruct (dget (in_coadd i) "filename"); [discriminate|congruence]. }
  { apply Hhead. reflexivity. }
  destruct (load_entries_work affine_wcs gsobject (map (@as_read F W A G) (in_src i)) 0) as [l1 El].
  { intros d Hd n. apply in_map_iff in Hd as (d0 & <- & Hd).
    destruct (prepared_source _ _ _ _ _ _ _ Hadd Hd) as (_ & _ & _ & _ & S5 & _).
    apply load_entry_works with (l := [4096; 2048]); rewrite as_read_get.
    - rewrite S5. reflexivity.
    - rewrite (proj2 (proj2 (Hall d0 (or_intror Hd)))). reflexivity.
    - rewrite (proj1 (Hsrc d0 Hd)). reflexivity. }
  assert (Hload : load header_wcs affine_wcs gsobject (mkent (as_read (in_coadd i)) (map as_read (in_src i))) = Ok (mkent c' l1)).
  { unfold load. cbn [en_coadd en_src]. rewrite Ec. cbn [bind]. rewrite El. reflexivity. }
  pose proof (load_entries_spec _ _ _ _ _ El) as [Ll Hl1].
  assert (Hkeep : forall n d1, nth_error l1 n = Some d1 -> exists d, nth_error (in_src i) n = Some d /\
    forall k, ~ In k ["affine_wcs"; "galsim_psf"; "image_id"] -> dget d1 k = option_map Plain (dget d k)).
  { intros n d1 Hn. destruct (nth_error (in_src i) n) as [d|] eqn:Ed.
    - destruct (Hl1 n (as_read d)) as (d2 & N2 & L2). { rewrite nth_error_map, Ed. reflexivity. }
      assert (d2 = d1) by congruence. subst d2. exists d. split; [reflexivity|]. intros k Hk.
      apply load_entry_same in L2 as [L2 _]. rewrite L2 by exact Hk. apply as_read_get.
    - apply nth_error_None in Ed. rewrite map_length in Ll. assert (n < length l1)%nat; [apply nth_error_Some; congruence|lia]. }
  (* flags *)
  destruct (GoProofs.mapM_total (flag_entry (Some se)) l1) as [l2 E2].
  { intros d1 Hd1. apply In_nth_error in Hd1 as [n Hn]. destruct (Hkeep n d1 Hn) as (d & Ed & K).
    assert (Hd : In d (in_src i)) by (eapply nth_error_In; exact Ed).
    destruct (prepared_source _ _ _ _ _ _ _ Hadd Hd) as (S1 & _).
    destruct Hdesc as (_ & _ & _ & _ & _ & _ & _ & _ & Hds). destruct (Forall2_nth _ _ _ Hds _ _ Ed) as (e & _ & He).
    destruct He as (_ & _ & _ & He & _). unfold whole_at in He.
    destruct (Hall d (or_intror Hd)) as (B1 & B2 & _).
    apply flag_entry_works with (f := 0) (n := se_ccdnum e);
      rewrite K by (cbn; intros X; repeat (destruct X as [X|X]; [discriminate|]); exact X).
    - rewrite S1. reflexivity.
    - rewrite He. reflexivity.
    - destruct (dget d "path"); [discriminate|congruence].
    - destruct (dget d "filename"); [discriminate|congruence]. }
  assert (Hflag : flag_data (Some se) (mkent c' l1) = Ok (mkent c' l2)).
  { unfold flag_data. cbn [en_coadd en_src]. rewrite E2. reflexivity. }
  pose proof (load_flag_handed _ _ _ _ _ _ _ Hload Hflag) as Hover.
  assert (Hcheck : check pop first (mkent c' l2) = Ok tt).
  { pose proof (proj2 (@check_sane F FO W A G pop first i pop_picks first_picks)) as X. unfold check in *.
    rewrite (load_flag_view _ _ _ _ _ _ _ Hload Hflag). apply X. exists v, tile, bnd. split; assumption. }
  assert (Hmeds : forall tn b, exists p, meds_path (op_output o) (op_config o) (op_tag o) (op_range o) tn b = Ok p).
  { intros tn b. unfold meds_path. destruct (endswith _ _); [eauto|]. destruct (endswith _ _); [eauto|].
    assert (X : exists rend, range_end (op_range o) = Ok rend).
    { destruct (op_range o) as [range|]; [|exists ""; apply range_end_ok; reflexivity].
      destruct (Hrange range eq_refl) as (x & y & Hxy). eexists. apply range_end_ok. exists x, y. split; [exact Hxy|reflexivity]. }
    destruct X as [rend ->]. cbn [bind]. eauto. }
  destruct (Hmeds (match tv with VText s => s | _ => "" end) (ti_band v)) as [p Hp].
  (* arguments *)
  assert (Hargs : exists a, slice_args wcs_text coadd_header (mkent c' l2) cc ct json (op_range o) (op_n_extra o) = Ok a).
  { unfold slice_args. cbn [en_coadd en_src]. destruct Hover as (Hc & Hlen & Hs). cbn [en_coadd en_src] in Hc, Hlen, Hs.
    assert (X1 : exists c1, im_coadd wcs_text c' = Ok c1).
    { destruct Hc as [K Id]. unfold im_coadd, whole_key, number_key, getv. rewrite Id.
      rewrite !K by (cbn; intros X; repeat (destruct X as [X|X]; [discriminate|]); exact X).
      rewrite C1, C2, C3, C4. cbn. eauto. }
    destruct X1 as [c1 ->]. cbn [bind].
    destruct (GoProofs.mapM_total (im_view wcs_text) l2) as [l3 ->]; [|cbn [bind]; eauto].
    intros d2 Hd2. apply In_nth_error in Hd2 as [n Hn].
    destruct (nth_error (in_src i) n) as [d|] eqn:Ed.
    2:{ apply nth_error_None in Ed. assert (n < length l2)%nat; [apply nth_error_Some; congruence|lia]. }
    destruct (Hs n d Ed) as (d' & Nd & K & Id & Fd & _). assert (d' = d2) by congruence. subst d'.
    assert (Hd : In d (in_src i)) by (eapply nth_error_In; exact Ed).
    destruct (prepared_source _ _ _ _ _ _ _ Hadd Hd) as (S1 & (m & x & S2 & S2') & (s & S3) & S4 & S5 & S6 & S7 & S8 & S9 & S10 & S11).
    destruct (Fd 0 S1) as (f' & F1 & _). destruct (Hsrc d Hd) as (_ & (ip & Hip) & (bp & Hbp)). unfold text_at in Hip, Hbp.
    unfold im_view, whole_key, number_key, text_key, getv. rewrite Id, F1.
    rewrite !K by (cbn; intros X; repeat (destruct X as [X|X]; [discriminate|]); exact X).
    rewrite S10, S11, S2, S3, S4, S6, S7, S8, S9, Hip, Hbp. cbn [bind option_map]. rewrite S2'. cbn. eauto. }
  destruct Hargs as [a Ha].
  exists a, (expand p), (mkent c' l2). split.
  { unfold Go.go_plan. rewrite Hl, Hct. cbn [bind]. rewrite Hcfg. cbn [bind]. rewrite Ho, Hr. cbn [bind]. rewrite Hpi. cbn [bind].
    unfold getk. rewrite Etv, Hb. cbn [bind]. rewrite Hj. cbn [bind]. cbv zeta. rewrite Hload. cbn [bind].
    rewrite Hse. rewrite Hflag. cbn [bind]. rewrite Hcheck. cbn [bind]. rewrite Hp. cbn [bind]. rewrite Hcc. cbn [key bind].
    rewrite Ha. reflexivity. }
  split; [exact Hover|]. split; [exact (args_for_plan _ _ _ _ _ _ _ _ _ Hload Hflag Ha)|].
  intros n d Hd. destruct Hover as (_ & _ & Hs). destruct (Hs n d Hd) as (d' & Nd & _ & _ & Fd & _).
  destruct (prepared_source _ _ _ _ _ _ _ Hadd (nth_error_In _ _ Hd)) as (S1 & _).
  destruct (Fd 0 S1) as (f & F1 & F2). exists d', f. split; [exact Nd|]. split; [exact F1|]. intros k Hk.
  rewrite (F2 k Hk), Z.bits_0. split; [intros [X|X]; [discriminate|exact X]|auto].
Qed.

End C83.

(** ** A concrete run: the preparation of a tile with two sources, and the command
    with its output, in a temporary directory *)
Definition ex_raw_coadd : dict (val f64) :=
  [("path", VText "a"); ("filename", VText "b"); ("tilename", VText "DES0001-0124"); ("band", VText "g");
   ("image_path", VText "x/DES0001-0124_r3p1_g.fits.fz"); ("psf_path", VText "x/DES0001-0124_r3p1_g_psfcat.psf")].
Definition ex_raw_source (ccd : Z) (name : string) : dict (val f64) :=
  [("path", VText "c"); ("filename", VText "d"); ("tilename", VText "DES0001-0124"); ("band", VText "g");
   ("expnum", VInt 42); ("ccdnum", VInt ccd); ("magzp", VNum (fofZ 30));
   ("image_path", VText (name ++ "_immasked.fits.fz")); ("bkg_path", VText (name ++ "_bkg.fits.fz"));
   ("psf_path", VText (name ++ "_psfexcat.psf")); ("piff_path", VText (name ++ "_piff.fits"))].
Definition ex_rows (e : val f64) (c : string) : result (list (string * piff_row f64)) :=
  Ok [("D00000042_g_c07_r3_piff.fits", mkpr (mkpi 0 fone fone fone 30 fone fone) 42 7);
      ("D00000042_g_c31_r3_piff.fits", mkpr (mkpi 1 fone fone fone 3 fone fone) 42 31)].
Definition ex_geom (t : val f64) : result (list (geom f64)) :=
  Ok [mkgeom (VText "N") (VNum fone) (VNum fone) (VNum fone) (VNum fone)].
Definition ex_first (l : list string) : string := match l with [] => "" | x :: _ => x end.
Definition ex_prep : list (event f64) * option pyexc :=
  prep_tile (fun x => Ok fone) ex_rows ex_geom (fun _ => Some "meds") "conf" "DES0001-0124" "g" "data" (Some "y6")
    (Ok tt) (Ok "cat/DES0001-0124_stars.fits") (Ok tt) (fun _ => Ok tt) (Ok tt)
    (Ok (mkinfo ex_raw_coadd [ex_raw_source 7 "y/D00000042_g_c07_r3"; ex_raw_source 31 "y/D00000042_g_c31_r3"]))
    (fun i => check ex_first ex_first (mkent (@as_read f64 unit unit unit (in_coadd i)) (map as_read (in_src i))))
    (fun _ => Ok tt) false.
Definition ex_info : info f64 :=
  match fst ex_prep with [_; _; _; Dumped _ i] => i | _ => mkinfo [] [] end.

Example C83_example_prepared :
  snd ex_prep = None /\
  In (Dumped "meds/conf/pizza_cutter_info/DES0001-0124_g_pizza_cutter_info.yaml" ex_info) (fst ex_prep).
Proof. vm_compute. split; [reflexivity|]. right. right. right. left. reflexivity. Qed.

(** The coadd is 4 by 4 pixels here; CCD 31 is to be ignored, and fails two cuts. *)
Definition ex_small : info f64 :=
  mkinfo (dset (in_coadd ex_info) "image_shape" (VShape [4; 4])) (in_src ex_info).
Definition ex_config : @config f64 :=
  mkcfg (Some (mkcc (Some 2) (Some 0) (Some 1) (Some "image"))) (Some (mksec (Some (mkcuts (Some (fofZ 2)) (Some 20) None None)) (Some [2; 31]))).
Definition ex_options : options :=
  mkopt "c/des.yaml" "info.yaml" (Some "v1") "out" "info" None 1.
Definition ex_work (t : @entries f64 unit unit unit) (c : @config f64) (a : @args f64 (@value f64 unit unit unit))
  (p : @Main.prepared f64 (@value f64 unit unit unit)) : result (@out f64 Z Z) :=
  Ok (mk_out Z Z (fun _ => None) 4 (fun _ => mk_obj 1 2 fone fone 0 0) [1; 2; 3; 4]).
Definition ex_main :=
  main (fun _ _ => Ok tt) (fun _ => Ok tt) (fun _ => Ok tt) ex_first ex_first (fun _ => Ok "{}")
    (fun _ => Raise IOError) (fun _ => Ok 20)
    (fun f => if String.eqb f "c/des.yaml" then Ok [97; 58] else if String.eqb f "info.yaml" then Ok [98] else Raise IOError)
    (fun t => if list_eq_dec Z.eq_dec t [97; 58] then Ok ex_config else Raise OtherError)
    (fun t => if list_eq_dec Z.eq_dec t [98] then Ok ex_small else Raise OtherError)
    (fun _ => Ok [123; 125]) (fun p => ("out", p))
    Z Z (list Z) string (fun _ => Some [47]) (fun _ => [49])
    (fun _ x y => Ok (x, y)) (fun _ _ _ => Ok (fone, fzero, fzero, fone))
    ex_work (fun l => Ok l) (fun name _ _ => Ok name)
    (@fits_file f64 Z (list Z) string) (fun f => f) None (fun f => (true, Some f)) (fun f => Nat.eqb (length f) 6)
    (OtherDevice [[]]) (fun _ => Ok "tmp1")
    (mk_fsys (fun _ => None) (fun _ => false)) ex_options true None.

Example C83_example :
  let '(s', r) := ex_main in
  r = Ok tt /\ isdir s' "tmp1" = false /\ file s' ("tmp1", "out/DES0001-0124_g_des-v1_meds-pizza-slices.fits") = None /\
  match file s' ("out", "out/DES0001-0124_g_des-v1_meds-pizza-slices.fits.fz") with
  | Some f =>
      map fst f = ["object_data"; "epochs_info"; "metadata"; "tile_info"; "image_info"; "gaia_stars"] /\
      match nth_error f 4 with
      | Some (_, CImages _ _ _ rows) => map r_flags rows = [0; 0; 1 + 2 ^ 3 + 2 ^ 30] /\ map r_id rows = [0; 1; 2]
      | _ => False
      end
  | None => False
  end.
Proof. vm_compute. repeat split; reflexivity. Qed.

Print Assumptions C83_what_a_run_works_with.
Print Assumptions C83_unusable_input_changes_nothing.
Print Assumptions C83_recorded.
Print Assumptions C83_temporary_directory.
Print Assumptions C83_changes_only_the_output.
Print Assumptions C83_prepared_tile_is_accepted.
