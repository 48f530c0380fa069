(** C86: the whole command, from the two input files to the pixels of the output. *)
From Coq Require Import ZArith List Bool String Permutation Lia.
From Coq Require Import List.
From Verif Require Import Lib.Base Lib.Floats Lib.PyStr Lib.PyText Lib.PyDict Model.Files Model.SliceRange Model.Jobs
  Model.Cache Model.ImageInfo Model.ObjectData Model.Affine Model.Gaia Model.SeWcs Model.SliceInputs Model.Coadd
  Model.Writer Model.Metadata Model.Main Model.Piff Model.DesInfo Model.TileInfo Model.Go Model.SingleSlice Model.Epoch
  Model.Whole Model.Process Model.Sched Model.Pool Model.Command
  Spec.PiffSpec Spec.DesInfoSpec Spec.FilesSpec Spec.WriterSpec Spec.RunSpec Spec.GoSpec Spec.ProcessSpec Spec.PoolSpec
  Spec.CommandSpec
  Proofs.BaseFacts Proofs.SliceInputsProofs Proofs.SingleSliceProofs Proofs.GoProofs Proofs.PoolProofs Proofs.CommandProofs
  Props.PropFiles Props.PropRun Props.PropSingleSlice Props.PropGo Props.PropPool.
Import ListNotations.
Open Scope string_scope.
Open Scope list_scope.
Open Scope Z_scope.

Section C86.
Context {F : Type} {FO : FloatOps F} {W P K RNG rng : Type}.
Notation value := (@Go.value F W (affine F) P).
Notation entries := (@Go.entries F W (affine F) P).
Notation V := (@pixel F).
Notation E := (list (@epoch_row F)).
(** What is outside the code: as in C83, ... *)
Variables (header_wcs : value -> value -> result W) (affine_wcs : value -> result (affine F))
          (gsobject : value -> result P)
          (wcs_text : dict value -> result string)
          (coadd_header : dict value -> result (option Z * option Z))
          (level : string -> result Z) (read : string -> result text)
          (parse_config : text -> result (@Go.config F)) (parse_info : text -> result (info F))
          (dumps : info F -> result text) (expand : string -> path)
          (E' Stars : Type)
          (env : string -> option text) (ver : string -> text)
          (get_jacobian : value -> F -> F -> result (F * F * F * F))
          (combine_epochs : list E -> result E')
          (read_stars : string -> value -> Z -> result Stars)
          (C : Type) (bytes : @fits_file F V E' Stars -> C) (fpack : C -> bool * option C) (valid : C -> bool).
(** ... and as in C82 to C85. *)
Variables (read_settings : text -> result (settings F K)) (world_for : K -> world F P) (wcs_of : value -> coadd_wcs F)
          (tables : table_libs F) (catalogue : string -> result (list (@star F)))
          (disk_pixels : hdu_name -> result (img F)) (disk_masks : hdu_name -> result (img Z))
          (libs : externals (F := F) (RNG := RNG))
          (zero : V) (cast : string -> V -> V) (isneg : V -> bool)
          (seed : Z) (init : Z -> rng) (randint : rng -> Z -> Z -> Z * rng) (obj0 : Z -> @obj F).
Hypothesis squares : squares_agree F.

Notation inputs := (inputs read parse_config parse_info).
Notation go_plan pop first := (go_plan header_wcs affine_wcs gsobject pop first wcs_text coadd_header level read
  parse_config parse_info dumps expand).
Notation prepare := (Main.prepare value env ver (fun w => cw_image2sky (wcs_of w)) get_jacobian).
Notation go pop first work partial dev := (go header_wcs affine_wcs gsobject pop first wcs_text coadd_header level read
  parse_config parse_info dumps expand V E E' Stars env ver (fun w => cw_image2sky (wcs_of w)) get_jacobian work
  combine_epochs read_stars C bytes partial fpack valid dev).
Notation make_job := (make_job read_settings world_for wcs_of tables catalogue disk_pixels disk_masks).
Notation works := (works read_settings world_for wcs_of tables catalogue disk_pixels disk_masks libs zero cast isneg
  seed init randint obj0).
Notation seeds_for t p a := (all_seeds rng init randint seed (Z.of_nat (length (p_objects value p)))
  (Z.of_nat (length (en_src t))) (a_n_extra value a)).
(** The work on one slice, without caches, as in C72 and C82. *)
Notation slice j p a ss it := (coadd_single_slice (tile_externals (jb_tile j) libs) (jb_config j) (jb_weight j) (jb_info j)
  (p_objects value p) (a_n_extra value a) ss it).

Notation good_hash pop first o := (good_hash (go_plan pop first o) prepare make_job (fun t p a => snd (seeds_for t p a))).
Notation done_in := (done_in works).

(** What the slices are made from: the configuration and the description of the tile. *)
Lemma job_inv (t : entries) a j : make_job t a = Ok j ->
  exists st band kws kw w offset,
  read_settings (a_config value a) = Ok st /\
  text_key (en_coadd t) "band" = Ok band /\ st_psf_kwargs st = Some kws /\ dget kws band = Some kw /\
  a_wcs value a = Some w /\ a_offset value a = Some offset /\
  st_coadding_weight st = Some (jb_weight j) /\ config_from st (jb_config j) /\
  options_from st (t_options (jb_tile j)) /\ t_world (jb_tile j) = world_for kw /\
  t_coadd (jb_tile j) = wcs_of w /\ t_offset (jb_tile j) = offset /\ t_libs (jb_tile j) = tables /\
  st_se_delta st = Some (t_se_delta (jb_tile j)) /\ st_coadd_delta st = Some (t_coadd_delta (jb_tile j)) /\
  mapM image_of (en_src t) = Ok (jb_images j) /\
  t_entries (jb_tile j) = map (entry_of disk_pixels disk_masks) (jb_images j) /\
  ti_image_shape (jb_info j) = a_shape value a /\ ti_position_offset (jb_info j) = offset /\
  match a_stars value a with
  | None => ti_gaia_stars (jb_info j) = None
  | Some f => exists l, catalogue f = Ok l /\ ti_gaia_stars (jb_info j) = Some l
  end.
Proof.
  unfold Command.make_job. intros H. apply bind_ok in H as (st & Hst & H). apply bind_ok in H as (band & Hband & H).
  repeat match type of H with
  | (_ <- key _ ;; _) = Ok _ =>
      let v := fresh "v" in let Hv := fresh "Hv" in
      apply bind_ok in H as (v & Hv & H); apply key_some in Hv
  end.
  apply bind_ok in H as (images & Him & H). apply bind_ok in H as (w & Hw & H). apply bind_ok in H as (off & Ho & H).
  apply key_some in Hw, Ho. apply bind_ok in H as (stars & Hs & H). apply Ok_inj in H. subst j.
  cbn [jb_weight jb_config jb_tile jb_images jb_info t_options t_world t_coadd t_offset t_libs t_se_delta t_coadd_delta
    t_entries ti_image_shape ti_position_offset ti_gaia_stars].
  do 6 eexists. split; [eassumption|]. split; [eassumption|]. split; [eassumption|]. split; [eassumption|].
  split; [eassumption|]. split; [eassumption|]. split; [eassumption|].
  split.
  { unfold config_from. cbn. repeat split; assumption. }
  split.
  { unfold options_from. cbn. repeat split; try assumption; eexists; split; try eassumption; reflexivity. }
  repeat (split; [first [reflexivity|assumption]|]).
  destruct (a_stars value a) as [f|].
  - apply bind_ok in Hs as (l & Hl & Hs). apply Ok_inj in Hs. subst stars. exists l. split; [exact Hl|reflexivity].
  - apply Ok_inj in Hs. congruence.
Qed.

(** C86: which images a run works on, and with which options: those of the entries of
    the description, with the flags that are due, and those of the configuration. *)
Theorem C86_what_the_slices_are_made_from :
  forall pop first o a out t cfg j, picks pop -> picks first ->
  go_plan pop first o = Ok (a, out, t, cfg) -> make_job t a = Ok j ->
  exists config_text i se st band kw,
  inputs o config_text cfg i /\ sane i /\ cf_single_epoch cfg = Some se /\
  read_settings config_text = Ok st /\ text_at (in_coadd i) "band" band /\
  (exists kws, st_psf_kwargs st = Some kws /\ dget kws band = Some kw) /\
  st_coadding_weight st = Some (jb_weight j) /\ config_from st (jb_config j) /\
  options_from st (t_options (jb_tile j)) /\ t_world (jb_tile j) = world_for kw /\
  (exists cc ty w, cf_coadd cfg = Some cc /\ cc_wcs_type cc = Some ty /\
     dget (en_coadd t) (ty ++ "_wcs")%string = Some w /\ t_coadd (jb_tile j) = wcs_of w) /\
  whole_at (in_coadd i) "position_offset" (t_offset (jb_tile j)) /\ t_libs (jb_tile j) = tables /\
  st_se_delta st = Some (t_se_delta (jb_tile j)) /\ st_coadd_delta st = Some (t_coadd_delta (jb_tile j)) /\
  t_entries (jb_tile j) = map (entry_of disk_pixels disk_masks) (jb_images j) /\
  length (jb_images j) = length (in_src i) /\
  (forall n d, nth_error (in_src i) n = Some d ->
     exists im, nth_error (jb_images j) n = Some im /\ image_for affine_wcs gsobject se n d im) /\
  ti_image_shape (jb_info j) = match dget (in_coadd i) "image_shape" with Some (VShape [r; c]) => Some (r, c) | _ => None end /\
  ti_position_offset (jb_info j) = t_offset (jb_tile j) /\
  match dget (in_coadd i) "gaia_stars_file" with
  | Some (VText f) => exists l, catalogue f = Ok l /\ ti_gaia_stars (jb_info j) = Some l
  | _ => ti_gaia_stars (jb_info j) = None
  end.
Proof.
  intros pop first o a out t cfg j P1 P2 Hp Hj.
  destruct (plan_inv _ _ _ _ _ _ _ _ _ _ _ _ _ P1 P2 _ _ _ _ _ Hp) as (ct & i & json & tv & bv & q & cc & se & t1 & _ & _ & Hin & _ & _ & _
    & H1 & H2 & Hs & _ & _ & Hcc & Hse & Ha).
  destruct (job_inv _ _ _ Hj) as (st & band & kws & kw & w & off & J1 & J2 & J3 & J4 & J5 & J6 & J7 & J8 & J9 & J10 & J11
    & J12 & J13 & J14 & J15 & J16 & J17 & J18 & J19 & J20).
  destruct (images_for _ _ _ _ _ _ _ _ H1 H2 J16) as [I1 I2].
  pose proof (load_flag_handed _ _ _ _ _ _ _ H1 H2) as ((Kc & _) & _).
  assert (Kk : forall k, ~ In k ["image_wcs"; "affine_wcs"; "image_id"] ->
    dget (en_coadd t) k = option_map Plain (dget (in_coadd i) k)) by exact Kc.
  unfold slice_args in Ha. apply bind_ok in Ha as (x1 & _ & Ha). apply bind_ok in Ha as (x2 & _ & Ha).
  apply Ok_inj in Ha. subst a. cbn [a_config a_wcs a_offset a_stars a_shape] in *. unfold int_key in J6.
  rewrite Kk in J6, J18, J20 by (cbn; intros X; repeat (destruct X as [X|X]; [discriminate|]); exact X).
  exists ct, i, se, st, band, kw. do 4 (split; [assumption|]).
  split.
  { refine (text_key_kept (in_coadd i) (en_coadd t) "band" band _ J2).
    apply Kk; cbn; intros X; repeat (destruct X as [X|X]; [discriminate|]); exact X. }
  split; [eauto|]. do 4 (split; [assumption|]).
  split.
  { destruct (cc_wcs_type cc) as [ty|] eqn:Ety; [|discriminate]. exists cc, ty, w. auto. }
  split.
  { unfold whole_at. rewrite J12. destruct (dget (in_coadd i) "position_offset") as [[]|]; try discriminate J6.
    cbn in J6. congruence. }
  do 6 (split; [assumption|]).
  split; [rewrite J18; destruct (dget (in_coadd i) "image_shape") as [[]|]; reflexivity|].
  split; [congruence|].
  destruct (dget (in_coadd i) "gaia_stars_file") as [[]|]; exact J20.
Qed.

(** C86: the conditions of C84 and C85 on the images hold for every description that
    passes the checks: the images have different ids, and a mask belongs to one CCD. *)
Theorem C86_images_meet_conditions :
  forall pop first o a out t cfg j ss, picks pop -> picks first ->
  go_plan pop first o = Ok (a, out, t, cfg) -> make_job t a = Ok j ->
  NoDup (map (@i_id F P) (jb_images j)) /\
  ((forall ct i, inputs o ct cfg i -> masks_have_names i) ->
   masks_of_one_ccd (jb_tile j) (seeded_images (jb_images j) ss)).
Proof.
  intros pop first o a out t cfg j ss P1 P2 Hp Hj.
  destruct (C86_what_the_slices_are_made_from _ _ _ _ _ _ _ _ P1 P2 Hp Hj) as (ct & i & se & st & band & kw & Hin & Hs & _ & _ & _ & _ & _
    & _ & _ & _ & _ & _ & _ & _ & _ & _ & L & I & _).
  split; [exact (images_ids _ _ _ _ _ L I)|].
  intros N _ im im' Hi Hi' E. apply seeded_in in Hi as (m & Hm & B & B2), Hi' as (m' & Hm' & B' & B2').
  rewrite B2, B2'. rewrite B, B' in E. clear B B' B2 B2' im im'.
  assert (G : forall m, In m (jb_images j) -> exists d, In d (in_src i) /\ text_at d "bmask_path" (fst (i_bmask m)) /\
    whole_at d "ccdnum" (i_ccdnum m)).
  { clear - L I. intros m Hm. apply In_nth_error in Hm as [n Hm].
    destruct (nth_error (in_src i) n) as [d|] eqn:Ed.
    - destruct (I n d Ed) as (im & Him & Hf). assert (im = m) by congruence. subst im. exists d.
      split; [exact (nth_error_In _ _ Ed)|]. destruct Hf as (_ & _ & _ & _ & _ & _ & [Hf _] & Hc & _). split; assumption.
    - apply nth_error_None in Ed. assert (X : nth_error (jb_images j) n <> None) by congruence.
      apply nth_error_Some in X. lia. }
  destruct (G m Hm) as (d & D1 & D2 & D3). destruct (G m' Hm') as (d' & D1' & D2' & D3'). rewrite <- E in D2'.
  refine (sane_masks i d d' (fst (i_bmask m)) _ _ Hs D1 D1' _ D2 D2' D3 D3').
  intros X. unfold text_at in D2. rewrite X in D2. exact (N ct i Hin d D1 D2).
Qed.

Lemma prepare_inv a p : prepare a = Ok p ->
  exists central buffer width psf_box w offset,
  a_central value a = Some central /\ a_buffer value a = Some buffer /\ a_psf_box value a = Some psf_box /\
  build_object_data (cw_image2sky (wcs_of w)) (get_jacobian w) central buffer width psf_box offset =
    Ok (p_objects value p).
Proof.
  unfold Main.prepare. intros H. apply bind_ok in H as ([m b] & _ & H). apply bind_ok in H as (ii & _ & H).
  apply bind_ok in H as (width & _ & H). apply bind_ok in H as (central & Hc & H). apply bind_ok in H as (buffer & Hb & H).
  apply bind_ok in H as (pb & Hpb & H). apply bind_ok in H as (w & _ & H). apply bind_ok in H as (off & _ & H).
  apply bind_ok in H as (objs & Ho & H). apply Ok_inj in H. subst p. cbn [p_objects].
  apply key_some in Hc, Hb, Hpb. exists central, buffer, width, pb, w, off. auto.
Qed.

Lemma plan_args pop first o a out t cfg : picks pop -> picks first -> go_plan pop first o = Ok (a, out, t, cfg) ->
  forward (a_slices value a) /\ a_n_extra value a = op_n_extra o.
Proof.
  intros P1 P2 Hp.
  destruct (plan_inv _ _ _ _ _ _ _ _ _ _ _ _ _ P1 P2 _ _ _ _ _ Hp) as (ct & i & json & tv & bv & q & cc & se & t1 & _ & _ & Hin & _ & _ & _
    & H1 & H2 & Hs & _ & _ & Hcc & Hse & Ha).
  destruct (args_for_plan _ _ _ _ _ _ _ _ _ _ _ _ _ _ H1 H2 Ha) as (_ & _ & _ & _ & _ & _ & _ & _ & _ & _ & A1 & A2).
  split; [|exact A2]. rewrite A1. destruct (op_range o); exact I.
Qed.

Section Planned.
Context (pop first : list string -> string) (o : Go.options) (a : @args F value) (out : path) (t : entries)
  (cfg : @Go.config F) (p : @prepared F value) (j : job F P) (central buffer width psf_box offset : Z) (w : value).
Hypotheses (P1 : picks pop) (P2 : picks first) (Hp : go_plan pop first o = Ok (a, out, t, cfg)) (Hpr : prepare a = Ok p)
  (Hj : make_job t a = Ok j) (Hm : forall ct i, inputs o ct cfg i -> masks_have_names i)
  (Hc : a_central value a = Some central) (Hb : a_buffer value a = Some buffer) (Hpb : a_psf_box value a = Some psf_box)
  (Ho : build_object_data (cw_image2sky (wcs_of w)) (get_jacobian w) central buffer width psf_box offset =
        Ok (p_objects value p)).

Notation completes y := (run_completes V E zero cast isneg (central + 2 * buffer) psf_box (a_n_extra value a)
  (Z.of_nat (length (p_objects value p))) (Z.of_nat (length (en_src t))) seed obj0 rng init randint
  (fun ss it => slice j p a ss it) (a_slices value a) (how_of y)).
Notation raises y := (run_raises V E zero cast isneg (central + 2 * buffer) psf_box (a_n_extra value a)
  (Z.of_nat (length (p_objects value p))) (Z.of_nat (length (en_src t))) seed obj0 rng init randint
  (fun ss it => slice j p a ss it) (a_slices value a) (how_of y)).

Lemma first_sizes ob rest : p_objects value p = ob :: rest ->
  ob_box_size ob = central + 2 * buffer /\ ob_psf_box_size ob = psf_box.
Proof.
  intros E1. pose proof Ho as H. rewrite E1 in H. exact (proj2 (build_sizes _ _ _ _ _ _ _ _ H 0%nat ob eq_refl)).
Qed.

Lemma with_memory y res : works y t a p res ->
  match res with
  | Ok x => p_objects value p <> [] /\
      run_with_memory_completes V E zero cast isneg (central + 2 * buffer) psf_box (a_n_extra value a)
        (Z.of_nat (length (p_objects value p))) (Z.of_nat (length (en_src t))) seed obj0 rng init randint (caches F P)
        (slice_work disk_pixels disk_masks libs y j (p_objects value p) (a_n_extra value a)) forgets_entries
        (after_image_info (wy_sizes y) (jb_tile j) (wy_loaded y)) (a_slices value a) (how_of y) x
  | Raise e => p_objects value p = [] \/
      make_plan rng init randint (wy_order y) (a_slices value a) (Z.of_nat (length (p_objects value p))) seed
        (Z.of_nat (length (en_src t))) (a_n_extra value a) (wy_jobs y) (wy_chunks y) = Raise e \/
      run_with_memory_raises V E zero cast isneg (central + 2 * buffer) psf_box (a_n_extra value a)
        (Z.of_nat (length (p_objects value p))) (Z.of_nat (length (en_src t))) seed obj0 rng init randint (caches F P)
        (slice_work disk_pixels disk_masks libs y j (p_objects value p) (a_n_extra value a)) forgets_entries
        (after_image_info (wy_sizes y) (jb_tile j) (wy_loaded y)) (a_slices value a) (how_of y)
  end.
Proof.
  intros H. destruct H as [e H|H|e H|j' ob rest plan ss r Hj' E1 Hplan Hr].
  - congruence.
  - left. exact H.
  - right. left. exact H.
  - assert (j' = j) by congruence. subst j'. destruct (first_sizes _ _ E1) as [S1 S2]. rewrite S1, S2 in Hr.
    assert (N : p_objects value p <> []) by congruence.
    destruct Hr as [todo r Hr|n k c s x Hs Hd|n k c s x e Hs Hd].
    + destruct r as [x|e].
      * split; [exact N|]. exists (Serial todo), ss. split; [exact Hplan|exact Hr].
      * right. right. exists (Serial todo), ss. split; [exact Hplan|]. exists e. exact Hr.
    + split; [exact N|]. exists (Parallel n k c), ss. split; [exact Hplan|]. exists s. split; assumption.
    + right. right. exists (Parallel n k c), ss. split; [exact Hplan|]. exists s, x. split; assumption.
Qed.

Lemma without_memory y x : p_objects value p <> [] ->
  run_with_memory_completes V E zero cast isneg (central + 2 * buffer) psf_box (a_n_extra value a)
    (Z.of_nat (length (p_objects value p))) (Z.of_nat (length (en_src t))) seed obj0 rng init randint (caches F P)
    (slice_work disk_pixels disk_masks libs y j (p_objects value p) (a_n_extra value a)) forgets_entries
    (after_image_info (wy_sizes y) (jb_tile j) (wy_loaded y)) (a_slices value a) (how_of y) x ->
  works y t a p (Ok x).
Proof.
  intros N (plan & ss & Hplan & H). destruct (p_objects value p) as [|ob rest] eqn:E1; [congruence|].
  rewrite <- E1 in *. destruct (first_sizes _ _ E1) as [S1 S2].
  eapply works_planned; [exact Hj|exact E1|exact Hplan|]. rewrite S1, S2. destruct plan as [todo|n k c].
  - constructor. exact H.
  - destruct H as (s & Hs & Hd). econstructor; eassumption.
Qed.

(** C86: the caches and the processes change nothing: the outputs that the work on the
    slices can have are those of the functions without caches (C31 to C35, C72, C82). *)
Theorem C86_outcomes : forall y x, good_hash pop first o y ->
  works y t a p (Ok x) <-> p_objects value p <> [] /\ completes y x.
Proof.
  intros y x Hh. destruct (C86_images_meet_conditions _ _ _ _ _ _ _ _ (snd (seeds_for t p a)) P1 P2 Hp Hj) as [Hid Hmask].
  specialize (Hmask Hm). pose proof (Hh _ _ _ _ _ _ Hp Hpr Hj) as Hf.
  destruct (job_inv _ _ _ Hj) as (st & band & kws & kw & w' & off & J). decompose [and] J. clear J.
  pose proof (C85_caches_change_nothing F FO P RNG (jb_tile j) disk_pixels disk_masks libs (jb_images j) (jb_config j)
    (jb_weight j) (jb_info j) central buffer psf_box (p_objects value p) (a_n_extra value a) zero cast isneg
    (Z.of_nat (length (en_src t))) seed obj0 rng init randint squares Hmask ltac:(assumption) Hid (wy_hash y) (wy_sizes y)
    (wy_loaded y) (a_slices value a) (how_of y) x Hf) as [A B].
  split.
  - intros H'. apply with_memory in H' as [N H']. split; [exact N|]. apply A. exact H'.
  - intros [N H']. apply without_memory; [exact N|]. apply B. exact H'.
Qed.

Lemma outcomes_raise y e : good_hash pop first o y -> works y t a p (Raise e) ->
  p_objects value p = [] \/
  make_plan rng init randint (wy_order y) (a_slices value a) (Z.of_nat (length (p_objects value p))) seed
    (Z.of_nat (length (en_src t))) (a_n_extra value a) (wy_jobs y) (wy_chunks y) = Raise e \/ raises y.
Proof.
  intros Hh H. destruct (C86_images_meet_conditions _ _ _ _ _ _ _ _ (snd (seeds_for t p a)) P1 P2 Hp Hj) as [Hid Hmask].
  specialize (Hmask Hm). pose proof (Hh _ _ _ _ _ _ Hp Hpr Hj) as Hf.
  destruct (job_inv _ _ _ Hj) as (st & band & kws & kw & w' & off & J). decompose [and] J. clear J.
  apply with_memory in H as [H|[H|H]]; [left; exact H|right; left; exact H|right; right].
  exact (proj1 (C85_caches_hide_no_errors F FO P RNG (jb_tile j) disk_pixels disk_masks libs (jb_images j) (jb_config j)
    (jb_weight j) (jb_info j) central buffer psf_box (p_objects value p) (a_n_extra value a) zero cast isneg
    (Z.of_nat (length (en_src t))) seed obj0 rng init randint squares Hmask ltac:(assumption) Hid (wy_hash y) (wy_sizes y)
    (wy_loaded y) (a_slices value a) (how_of y) Hf) H).
Qed.

Lemma labels (Hx : 0 <= op_n_extra o) :
  labelled V E (central + 2 * buffer) psf_box (a_n_extra value a) (Z.of_nat (length (p_objects value p)))
    (fun ss it => slice j p a ss it).
Proof.
  destruct (plan_args _ _ _ _ _ _ _ P1 P2 Hp) as [_ En].
  exact (C72_results_are_labelled F FO RNG (tile_externals (jb_tile j) libs) (jb_config j) (jb_weight j) (jb_info j)
    _ _ central buffer width psf_box offset (p_objects value p) (a_n_extra value a) ltac:(lia) Ho).
Qed.

(** C86: two ways to do the work have the same output, and one cannot fail alone. *)
Theorem C86_ways_agree : forall y1 y2 x1 res, 0 <= op_n_extra o -> valid_way y1 -> valid_way y2 ->
  good_hash pop first o y1 -> good_hash pop first o y2 ->
  works y1 t a p (Ok x1) -> works y2 t a p res ->
  exists x2, res = Ok x2 /\ same_output V E x1 x2.
Proof.
  intros y1 y2 x1 res Hx V1 V2 H1 H2 W1 W2. destruct (plan_args _ _ _ _ _ _ _ P1 P2 Hp) as [Hf En].
  assert (Hn : 0 <= a_n_extra value a) by lia.
  apply (C86_outcomes _ _ H1) in W1 as [N C1]. pose proof (labels Hx) as L.
  destruct res as [x2|e].
  - apply (C86_outcomes _ _ H2) in W2 as [_ C2]. exists x2. split; [reflexivity|].
    exact (C31_same_output F FO _ _ _ _ _ _ _ _ _ _ _ _ _ _ _ _ Hn (Nat2Z.is_nonneg _) L _ _ _ _ _ Hf V1 V2 C1 C2).
  - exfalso. destruct (outcomes_raise _ _ H2 W2) as [X|[X|X]]; [exact (N X)| |].
    + destruct (C31_all_complete F FO _ _ _ _ _ _ _ _ _ _ _ _ _ _ _ _ Hn (Nat2Z.is_nonneg _) L _ _ _ _ Hf V1 V2 C1)
        as (o2 & (pl & ss & Hpl & _) & _). unfold how_of in Hpl. cbn [h_order h_jobs h_chunks] in Hpl. congruence.
    + exact (C31_same_outcome F FO _ _ _ _ _ _ _ _ _ _ _ _ _ _ _ _ Hn (Nat2Z.is_nonneg _) L _ _ _ _ Hf V2 V1 X C1).
Qed.

(** C86: when the work can be done in one way it can be done in any other. *)
Theorem C86_all_complete : forall y1 y2 x1, 0 <= op_n_extra o -> valid_way y1 -> valid_way y2 ->
  good_hash pop first o y1 -> good_hash pop first o y2 ->
  works y1 t a p (Ok x1) -> exists x2, works y2 t a p (Ok x2).
Proof.
  intros y1 y2 x1 Hx V1 V2 H1 H2 W1. destruct (plan_args _ _ _ _ _ _ _ P1 P2 Hp) as [Hf En].
  assert (Hn : 0 <= a_n_extra value a) by lia.
  apply (C86_outcomes _ _ H1) in W1 as [N C1]. pose proof (labels Hx) as L.
  destruct (C31_all_complete F FO _ _ _ _ _ _ _ _ _ _ _ _ _ _ _ _ Hn (Nat2Z.is_nonneg _) L _ _ _ _ Hf V1 V2 C1)
    as (o2 & C2 & _). exists o2. apply (C86_outcomes _ _ H2). split; assumption.
Qed.
End Planned.

(** ** The files *)
Lemma plans_agree pop1 first1 pop2 first2 o1 o2 a1 out1 t1 cfg1 a2 out2 t2 cfg2 :
  picks pop1 -> picks first1 -> picks pop2 -> picks first2 -> same_inputs o1 o2 ->
  go_plan pop1 first1 o1 = Ok (a1, out1, t1, cfg1) -> go_plan pop2 first2 o2 = Ok (a2, out2, t2, cfg2) ->
  a1 = a2 /\ t1 = t2 /\ cfg1 = cfg2 /\
  exists ct i p1 p2, inputs o1 ct cfg1 i /\ named_output o1 i p1 /\ named_output o2 i p2 /\ out1 = expand p1 /\ out2 = expand p2.
Proof.
  intros P1 P2 P3 P4 (S1 & S2 & S3 & S4) H1 H2.
  destruct (plan_inv _ _ _ _ _ _ _ _ _ _ _ _ _ P1 P2 _ _ _ _ _ H1) as (ct & i & json & tv & bv & q & cc & se & u & _ & _
    & Hin & Hj & Htv & Hbv & A1 & A2 & Hs & Hq & Eo & Hcc & Hse & Ha).
  destruct (plan_inv _ _ _ _ _ _ _ _ _ _ _ _ _ P3 P4 _ _ _ _ _ H2) as (ct' & i' & json' & tv' & bv' & q' & cc' & se' & u' & _
    & _ & Hin' & Hj' & Htv' & Hbv' & A1' & A2' & Hs' & Hq' & Eo' & Hcc' & Hse' & Ha').
  pose proof Hin as Hin0. unfold GoSpec.inputs in Hin, Hin'. rewrite <- S1, <- S2 in Hin'.
  destruct Hin as (X1 & X2 & it & X3 & X4), Hin' as (Y1 & Y2 & it' & Y3 & Y4).
  rewrite X1 in Y1. apply Ok_inj in Y1. subst ct'. rewrite X2 in Y2. apply Ok_inj in Y2. subst cfg2.
  rewrite X3 in Y3. apply Ok_inj in Y3. subst it'. rewrite X4 in Y4. apply Ok_inj in Y4. subst i'.
  rewrite Hj in Hj'. apply Ok_inj in Hj'. subst json'. rewrite A1 in A1'. apply Ok_inj in A1'. subst u'.
  assert (se' = se) by congruence. subst se'. assert (cc' = cc) by congruence. subst cc'.
  rewrite A2 in A2'. apply Ok_inj in A2'. subst t2. rewrite <- S3, <- S4 in Ha'. rewrite Ha in Ha'.
  apply Ok_inj in Ha'. subst a2. do 3 (split; [reflexivity|]). exists ct, i, q, q'. split; [exact Hin0|].
  split; [exact (named_plan _ _ _ _ _ Hs Htv Hbv Hq)|]. split; [exact (named_plan _ _ _ _ _ Hs' Htv' Hbv' Hq')|].
  split; assumption.
Qed.

Notation images_in x a := (flat_map (fun n => match o_fits V E x n with Some h => [(n, CImage V E' Stars h)] | None => [] end)
  (reserve_names (a_n_extra value a) ++ [PSF_EXT])).
Notation tables_in x p e := ([("object_data", CObjects V E' Stars (combine (p_objects value p)
    (map (o_obj V E x) (zrange 0 (Z.of_nat (length (p_objects value p))))))); ("epochs_info", CEpochs V E' Stars e);
  ("metadata", CMeta V E' Stars (p_meta value p)); ("tile_info", CBytes V E' Stars (p_bytes value p));
  ("image_info", CImages V E' Stars (p_images value p))]).
Notation stars_in a p st := (match a_stars value a with
  | None => st = []
  | Some name => exists s, read_stars name (p_wcs value p) (p_offset value p) = Ok s /\
                           st = [("gaia_stars", CStars V E' Stars s)]
  end).

Lemma file_inv (work : entries -> @Go.config F -> @args F value -> @prepared F value -> result (@out F V E))
  (t : entries) (cfg : @Go.config F) a p f :
  whole_file V E E' Stars value (work t cfg) combine_epochs read_stars a p = Ok f ->
  exists x e st l, work t cfg a p = Ok x /\ slices_of (a_slices value a) (Z.of_nat (length (p_objects value p))) = Ok l /\
  combine_epochs (o_epochs V E x) = Ok e /\ stars_in a p st /\ f = images_in x a ++ tables_in x p e ++ st.
Proof.
  intros H. unfold whole_file in H. apply bind_ok in H as (f1 & H1 & H). unfold coadd_and_write in H1.
  apply bind_ok in H1 as (rg & Hrg & H1). apply bind_ok in H1 as (sh & _ & H1). apply bind_ok in H1 as (x & Hx & H1).
  cbv zeta in H1. destruct (Nat.eqb _ _); [|discriminate]. apply bind_ok in H1 as (e & He & H1). apply Ok_inj in H1. subst f1.
  exists x, e. assert (Q : exists st, stars_in a p st /\ f = images_in x a ++ tables_in x p e ++ st).
  { destruct (a_stars value a) as [name|].
    - apply bind_ok in H as (s & Hs & H). apply Ok_inj in H. eexists. split; [exists s; split; [exact Hs|reflexivity]|].
      rewrite <- H, <- !app_assoc. reflexivity.
    - apply Ok_inj in H. exists []. split; [reflexivity|]. rewrite <- H, <- !app_assoc. reflexivity. }
  destruct Q as (st & Q1 & Q2). exists st, (range_list rg). split; [exact Hx|]. split; [unfold slices_of; rewrite Hrg; reflexivity|].
  auto.
Qed.

Lemma same_file_of (x x' : @out F V E) (a : @args F value) (p : @prepared F value) e e' st st' : same_output V E x x' ->
  combine_epochs (o_epochs V E x) = Ok e -> combine_epochs (o_epochs V E x') = Ok e' ->
  stars_in a p st -> stars_in a p st' ->
  same_file V E E' Stars combine_epochs (images_in x a ++ tables_in x p e ++ st) (images_in x' a ++ tables_in x' p e' ++ st').
Proof.
  intros (S1 & S2 & S3) He He' Hst Hst'. unfold same_file. apply Forall2_app; [|apply Forall2_app].
  - induction (reserve_names _ ++ _) as [|n l IH]; [constructor|]. cbn [flat_map]. apply Forall2_app; [|exact IH].
    specialize (S1 n). destruct (o_fits V E x n), (o_fits V E x' n); try contradiction; constructor; [|constructor].
    cbn [fst snd]. split; [reflexivity|exact S1].
  - replace (map (o_obj V E x') (zrange 0 (Z.of_nat (length (p_objects value p)))))
      with (map (o_obj V E x) (zrange 0 (Z.of_nat (length (p_objects value p))))) by (apply map_ext; exact S2).
    repeat (constructor; [split; [reflexivity|]; cbn [fst snd same_content]|]); try reflexivity; [|constructor].
    exists (o_epochs V E x), (o_epochs V E x'). auto.
  - assert (st = st') as <-.
    { destruct (a_stars value a) as [nm|]; [|congruence]. destruct Hst as (s & H1 & ->). destruct Hst' as (s' & H2 & ->).
      rewrite H1 in H2. apply Ok_inj in H2. subst. reflexivity. }
    destruct (a_stars value a) as [nm|]; [destruct Hst as (s & _ & ->)|subst st]; repeat constructor.
Qed.

Lemma put_in_place s s' wr tmpdir (out : path) rm f :
  make_slices_files s wr out tmpdir rm = (s', Ok tt) ->
  w_fits wr = Ok (bytes f) -> w_fpack_out wr = snd (fpack (bytes f)) -> w_valid wr = valid ->
  put_there V E' Stars bytes fpack valid s s' tmpdir out f.
Proof.
  intros HF W1 W2 W3. pose proof (C28_outcome C _ _ _ _ _ _ _ _ HF W1) as [X Y]. rewrite W2 in X, Y. rewrite W3 in Y.
  unfold put_there. destruct (snd (fpack (bytes f))) as [c|].
  - split; [exact X|]. destruct (valid c); [reflexivity|discriminate].
  - destruct tmpdir as [d|]; [|discriminate]. destruct (String.eqb_spec d (fst out)) as [Ed|Nd].
    + subst d. cbn [negb] in X, Y. discriminate.
    + split; [exists d; split; [reflexivity|exact Nd]|]. exact X.
Qed.

Lemma go_inv pop first (work : entries -> @Go.config F -> @args F value -> @prepared F value -> result (@out F V E)) partial dev s s' o tmpdir y :
  picks pop -> picks first -> done_in y work ->
  go pop first work partial dev s o tmpdir = (s', Ok tt) ->
  exists a out t cfg p j f x e st l,
  go_plan pop first o = Ok (a, out, t, cfg) /\ prepare a = Ok p /\ make_job t a = Ok j /\
  works y t a p (Ok x) /\ combine_epochs (o_epochs V E x) = Ok e /\ stars_in a p st /\
  slices_of (a_slices value a) (Z.of_nat (length (p_objects value p))) = Ok l /\
  f = images_in x a ++ tables_in x p e ++ st /\ put_there V E' Stars bytes fpack valid s s' tmpdir out f.
Proof.
  intros P1 P2 D H. unfold Go.go in H. destruct (go_plan pop first o) as [[[[a out] t] cfg]|e] eqn:Ep; [|discriminate].
  destruct (make_slices_inv V E E' Stars env ver _ get_jacobian work combine_epochs read_stars C bytes partial fpack valid dev
    t cfg s a out tmpdir _ s' H) as (p & f & Hp & Hf & wr & W1 & W2 & W3 & HF).
  destruct (file_inv _ _ _ _ _ _ Hf) as (x & e & st & l & Hx & Hl & He & Hst & Ef).
  pose proof (D t cfg a p) as Hw. rewrite Hx in Hw.
  assert (Hj : exists j, make_job t a = Ok j) by (inversion Hw; eauto). destruct Hj as [j Hj].
  exists a, out, t, cfg, p, j, f, x, e, st, l. split; [reflexivity|]. do 7 (split; [assumption|]).
  exact (put_in_place _ _ _ _ _ _ _ HF W1 W2 W3).
Qed.

(** C86: two runs of the command on the same input write the same file: whatever the
    number of processes and of chunks, the order of the work, the schedule of the
    processes, the sizes of the caches and what they have lost, the hashes of the images,
    the order of sets, the level of the log, the tag, the names of the output and of the
    temporary directory, and what was on the disk. *)
Theorem C86_same_file :
  forall pop1 first1 pop2 first2 y1 y2 work1 work2 partial1 partial2 dev1 dev2 s1 s1' s2 s2' o1 o2 tmpdir1 tmpdir2,
  picks pop1 -> picks first1 -> picks pop2 -> picks first2 ->
  valid_way y1 -> valid_way y2 -> good_hash pop1 first1 o1 y1 -> good_hash pop2 first2 o2 y2 ->
  done_in y1 work1 -> done_in y2 work2 ->
  same_inputs o1 o2 -> 0 <= op_n_extra o1 -> (forall ct cfg i, inputs o1 ct cfg i -> masks_have_names i) ->
  go pop1 first1 work1 partial1 dev1 s1 o1 tmpdir1 = (s1', Ok tt) ->
  go pop2 first2 work2 partial2 dev2 s2 o2 tmpdir2 = (s2', Ok tt) ->
  exists i p1 p2 f1 f2,
  (exists ct cfg, inputs o1 ct cfg i) /\ named_output o1 i p1 /\ named_output o2 i p2 /\
  same_file V E E' Stars combine_epochs f1 f2 /\
  put_there V E' Stars bytes fpack valid s1 s1' tmpdir1 (expand p1) f1 /\
  put_there V E' Stars bytes fpack valid s2 s2' tmpdir2 (expand p2) f2.
Proof.
  intros pop1 first1 pop2 first2 y1 y2 work1 work2 partial1 partial2 dev1 dev2 s1 s1' s2 s2' o1 o2 tmpdir1 tmpdir2
    P1 P2 P3 P4 V1 V2 G1 G2 D1 D2 S Hx Hm H1 H2.
  destruct (go_inv _ _ _ _ _ _ _ _ _ _ P1 P2 D1 H1) as (a & out1 & t & cfg & p & j & f1 & x1 & e1 & st1 & l1 & Hp & Hpr & Hj & W1
    & E1 & T1 & L1 & F1 & U1).
  destruct (go_inv _ _ _ _ _ _ _ _ _ _ P3 P4 D2 H2) as (a2 & out2 & t2 & cfg2 & p2 & j2 & f2 & x2 & e2 & st2 & l2 & Hp2 & Hpr2
    & Hj2 & W2 & E2 & T2 & L2 & F2 & U2).
  destruct (plans_agree _ _ _ _ _ _ _ _ _ _ _ _ _ _ P1 P2 P3 P4 S Hp Hp2) as (<- & <- & <- & ct & i & q1 & q2 & I1 & I2 & I3
    & -> & ->).
  rewrite Hpr in Hpr2. apply Ok_inj in Hpr2. subst p2. rewrite Hj in Hj2. apply Ok_inj in Hj2. subst j2.
  destruct (prepare_inv _ _ Hpr) as (central & buffer & width & psf_box & w & offset & Hc & Hb & Hpb & Ho).
  assert (G2' : good_hash pop1 first1 o1 y2).
  { intros a' out' t' cfg' p' j' A1 A2 A3. rewrite Hp in A1. apply Ok_inj in A1. injection A1 as <- <- <- <-.
    exact (G2 _ _ _ _ _ _ Hp2 A2 A3). }
  destruct (C86_ways_agree pop1 first1 o1 a _ t cfg p j central buffer width psf_box offset w P1 P2 Hp Hpr Hj (fun c i => Hm c cfg i)
    Ho y1 y2 x1 (Ok x2) Hx V1 V2 G1 G2' W1 W2) as (x2' & X & SO).
  apply Ok_inj in X. subst x2'. exists i, q1, q2, f1, f2. split; [eauto|]. split; [exact I2|]. split; [exact I3|].
  split; [|split; assumption]. rewrite F1, F2. exact (same_file_of _ _ _ _ _ _ _ _ SO E1 E2 T1 T2).
Qed.

Lemma image_names (r : @results F V E) ext info im n_extra : belongs V E r ext info im ->
  Z.of_nat (length (r_noises V E r)) = n_extra + 1 -> In ext (reserve_names n_extra ++ [PSF_EXT]).
Proof.
  intros H L. assert (G : forall n, In n [IMAGE_EXT; WEIGHT_EXT; SEG_EXT; BMASK_EXT; ORMASK_EXT; NOISE_EXT; MFRAC_EXT] ->
    In n (reserve_names n_extra ++ [PSF_EXT])).
  { intros n Hn. unfold reserve_names. rewrite <- app_assoc. apply in_or_app. left. exact Hn. }
  destruct H; try (apply G; cbn; tauto).
  - apply in_or_app. left. unfold reserve_names. apply in_or_app. right. apply in_map_iff.
    assert (k < length (r_noises V E r))%nat by (apply nth_error_Some; congruence).
    exists (Z.of_nat k - 1). split; [unfold noise_ext; rewrite Z.sub_add; reflexivity|]. apply In_zrange. lia.
  - apply in_or_app. right. left. reflexivity.
Qed.

Lemma in_images (x : @out F V E) (a : @args F value) (p : @prepared F value) e st n h : stars_in a p st ->
  In (n, CImage V E' Stars h) (images_in x a ++ tables_in x p e ++ st) ->
  o_fits V E x n = Some h.
Proof.
  intros Hst H. apply in_app_or in H as [H|H].
  - apply in_flat_map in H as (m & _ & H). destruct (o_fits V E x m) eqn:Em; [|contradiction].
    destruct H as [H|[]]. injection H as <- <-. exact Em.
  - exfalso. apply in_app_or in H as [H|H].
    + cbn in H. repeat (destruct H as [H|H]; [discriminate|]). exact H.
    + destruct (a_stars value a) as [nm|]; [destruct Hst as (s & _ & ->); destruct H as [H|[]]; discriminate|subst st; exact H].
Qed.

Lemma row_in (objs : list (@object F)) (g : Z -> @obj F) k ob : nth_error objs k = Some ob ->
  nth_error (combine objs (map g (zrange 0 (Z.of_nat (length objs))))) k = Some (ob, g (Z.of_nat k)).
Proof.
  intros Hk. assert (Hlt : (k < length objs)%nat) by (apply nth_error_Some; congruence).
  assert (Hm : nth_error (map g (zrange 0 (Z.of_nat (length objs)))) k = Some (g (Z.of_nat k))).
  { rewrite nth_error_map, nth_error_zrange by lia. cbn [option_map]. rewrite Z.add_0_l. reflexivity. }
  revert Hk Hm. generalize (map g (zrange 0 (Z.of_nat (length objs)))) (g (Z.of_nat k)). clear.
  revert objs. induction k as [|k IH]; intros [|x l] [|y l'] v H1 H2; try discriminate; cbn in *.
  + injection H1 as ->. injection H2 as ->. reflexivity.
  + apply IH; assumption.
Qed.

(** C86: and this is what the file holds: the results of each slice that was asked for,
    made from the images of the tile (C86_what_the_slices_are_made_from, C72, C82), and
    nothing elsewhere. *)
Theorem C86_slices_in_file :
  forall pop first y work partial dev s s' o tmpdir,
  picks pop -> picks first -> valid_way y -> good_hash pop first o y -> done_in y work ->
  0 <= op_n_extra o -> (forall ct cfg i, inputs o ct cfg i -> masks_have_names i) ->
  go pop first work partial dev s o tmpdir = (s', Ok tt) ->
  exists a out t cfg p j f central buffer psf_box l,
  go_plan pop first o = Ok (a, out, t, cfg) /\ prepare a = Ok p /\ make_job t a = Ok j /\
  a_central value a = Some central /\ a_buffer value a = Some buffer /\ a_psf_box value a = Some psf_box /\
  slices_of (a_slices value a) (Z.of_nat (length (p_objects value p))) = Ok l /\
  put_there V E' Stars bytes fpack valid s s' tmpdir out f /\
  let '(seeds, ss) := seeds_for t p a in
  (forall i, In i l -> 0 <= i < Z.of_nat (length (p_objects value p)) /\
     exists r, slice j p a ss (i, nth (Z.to_nat i) seeds 0) = Ok r /\ r_i V E r = i /\
     holds_slice V E E' Stars combine_epochs zero cast (central + 2 * buffer) psf_box f r) /\
  (forall ext h q, In (ext, CImage V E' Stars h) f ->
     (forall i, In i l -> ~ in_region i (if String.eqb ext "psf" then psf_box ^ 2 else (central + 2 * buffer) ^ 2) q) ->
     dat V h q = zero) /\
  (forall rows, In ("object_data", CObjects V E' Stars rows) f ->
     map fst rows = p_objects value p /\
     forall k ob b, nth_error rows k = Some (ob, b) -> ~ In (Z.of_nat k) l -> b = obj0 (Z.of_nat k)).
Proof.
  intros pop first y work partial dev s s' o tmpdir P1 P2 Vy Hh D Hx Hm H.
  destruct (go_inv _ _ _ _ _ _ _ _ _ _ P1 P2 D H) as (a & out & t & cfg & p & j & f & x & e & st & l & Hp & Hpr & Hj & Wk
    & He & Hst & Hl & Hf & U).
  destruct (prepare_inv _ _ Hpr) as (central & buffer & width & psf_box & w & offset & Hc & Hb & Hpb & Ho).
  exists a, out, t, cfg, p, j, f, central, buffer, psf_box, l. do 8 (split; [assumption|]).
  destruct (plan_args _ _ _ _ _ _ _ P1 P2 Hp) as [Hfw En]. assert (Hn : 0 <= a_n_extra value a) by lia.
  apply (C86_outcomes pop first o a out t cfg p j central buffer width psf_box offset w P1 P2 Hp Hpr Hj
    (fun c i => Hm c cfg i) Ho y x Hh) in Wk as [_ Wk].
  pose proof (labels pop first o a out t cfg p j central buffer width psf_box offset w P1 P2 Hp Ho Hx) as Lb.
  pose proof (C34_run_contents F FO _ _ _ _ _ _ _ _ _ _ _ _ _ _ _ _ Hn (Nat2Z.is_nonneg _) Lb _ _ _ _ Hfw Vy Hl Wk) as R.
  rewrite (surjective_pairing (seeds_for t p a)) in R |- *. cbv zeta in R |- *.
  set (seeds := fst (seeds_for t p a)) in *. set (ss := snd (seeds_for t p a)) in *.
  destruct R as (R1 & R2 & R3 & _).
  assert (Im : forall n h, In n (reserve_names (a_n_extra value a) ++ [PSF_EXT]) -> o_fits V E x n = Some h ->
    In (n, CImage V E' Stars h) f).
  { intros n h Hn' Hh'. rewrite Hf. apply in_or_app. left. apply in_flat_map. exists n. split; [exact Hn'|]. rewrite Hh'.
    left. reflexivity. }
  assert (Tb : forall z, In z (tables_in x p e) -> In z f).
  { intros z Hz. rewrite Hf. apply in_or_app. right. apply in_or_app. left. exact Hz. }
  split; [|split].
  - intros i Hi. destruct (R1 i Hi) as (Ri & r & Wr & Er & St). split; [exact Ri|]. exists r. split; [exact Wr|].
    split; [exact Er|]. unfold stored in St. cbv zeta in St. destruct St as (St1 & St2 & St3). unfold holds_slice. cbv zeta.
    split.
    { exists (o_epochs V E x), e. split; [exact St1|]. split; [exact He|]. apply Tb. cbn. auto. }
    assert (Hlt : (Z.to_nat i < length (p_objects value p))%nat) by lia.
    destruct (nth_error (p_objects value p) (Z.to_nat i)) as [ob|] eqn:Eob; [|apply nth_error_None in Eob; lia].
    exists (combine (p_objects value p) (map (o_obj V E x) (zrange 0 (Z.of_nat (length (p_objects value p)))))), ob,
      (o_obj V E x i).
    split; [apply Tb; left; reflexivity|]. rewrite Er in *. split.
    { rewrite (row_in _ _ _ _ Eob). rewrite Z2Nat.id by lia. reflexivity. }
    split; [rewrite (proj1 (build_sizes _ _ _ _ _ _ _ _ Ho _ _ Eob)); lia|].
    assert (Dd : r_weights V E r = [] \/ has_data V E r).
    { unfold has_data. destruct (r_weights V E r); [left; reflexivity|right; discriminate]. }
    split.
    { destruct Dd as [Dd|Dd]; [|apply St2; exact Dd]. rewrite Dd. apply St3. intros Q. exact (Q Dd). }
    split.
    + intros Q. destruct (St2 Q) as (T1 & T2 & T3 & T4 & T5 & T6 & T7). repeat (split; [assumption|]).
      intros ext info im Hb'. destruct (T1 ext info im Hb') as (h & Hh1 & Hh2). exists h. split; [|exact Hh2].
      apply Im; [|exact Hh1]. destruct (Lb ss i (nth (Z.to_nat i) seeds 0) r Ri Wr) as [_ Sh].
      exact (image_names _ _ _ _ _ Hb' (proj1 (Sh Q))).
    + intros Q. destruct St3 as (T1 & _ & T3 & _); [intros N; exact (N Q)|]. split; [exact T3|].
      intros ext h q Hin. apply T1. rewrite Hf in Hin. exact (in_images _ _ _ _ _ _ _ Hst Hin).
  - intros ext h q Hin. apply R2. rewrite Hf in Hin. exact (in_images _ _ _ _ _ _ _ Hst Hin).
  - intros rows Hin. assert (rows = combine (p_objects value p) (map (o_obj V E x) (zrange 0 (Z.of_nat (length (p_objects value p)))))) as ->.
    { rewrite Hf in Hin. apply in_app_or in Hin as [Hin|Hin].
      - exfalso. apply in_flat_map in Hin as (m & _ & Hin). destruct (o_fits V E x m); [|contradiction].
        destruct Hin as [Hin|[]]. discriminate.
      - apply in_app_or in Hin as [Hin|Hin].
        + cbn in Hin. repeat (destruct Hin as [Hin|Hin]; [try discriminate; injection Hin as <-; reflexivity|]). contradiction.
        + exfalso. destruct (a_stars value a) as [nm|]; [destruct Hst as (s0 & _ & ->); destruct Hin as [Hin|[]]; discriminate|].
          subst st. exact Hin. }
    assert (Len : length (map (o_obj V E x) (zrange 0 (Z.of_nat (length (p_objects value p))))) = length (p_objects value p)).
    { rewrite map_length, zrange_length. lia. }
    split.
    + revert Len. generalize (map (o_obj V E x) (zrange 0 (Z.of_nat (length (p_objects value p))))). clear.
      induction (p_objects value p) as [|ob objs IH]; intros [|b bs] L; try discriminate; [reflexivity|].
      cbn. f_equal. apply IH. cbn in L. lia.
    + intros k ob b Hk Hni. assert (Hlt : (k < length (p_objects value p))%nat).
      { assert (N : nth_error (combine (p_objects value p) (map (o_obj V E x) (zrange 0 (Z.of_nat (length (p_objects value p)))))) k <> None) by congruence.
        apply nth_error_Some in N. rewrite combine_length in N. lia. }
      destruct (nth_error (p_objects value p) k) as [ob'|] eqn:Eob; [|apply nth_error_None in Eob; lia].
      rewrite (row_in _ _ _ _ Eob) in Hk. injection Hk as <- <-. apply R3. exact Hni.
Qed.

(** C86: there is always such a work function: the one of a run in one process. *)
Theorem C86_one_process : forall y, wy_jobs y = 1 ->
  done_in y (serially read_settings world_for wcs_of tables catalogue disk_pixels disk_masks libs zero cast isneg
    seed init randint obj0 y).
Proof.
  intros y Hy t cfg a p. unfold serially. destruct (make_job t a) as [j|e] eqn:Ej; [|apply works_unread; exact Ej].
  cbn [bind]. destruct (p_objects value p) as [|ob rest] eqn:Eo; [apply works_empty; exact Eo|]. rewrite <- Eo.
  destruct (make_plan _ _ _ _ _ _ _ _ _ 1 _) as [[plan ss]|e] eqn:Em; cbn [bind].
  - assert (Sr : exists todo, plan = Serial todo).
    { unfold make_plan in Em. apply bind_ok in Em as (rg & _ & Em). destruct (forallb _ _); [|discriminate].
      destruct (all_seeds _ _ _ _ _ _ _) as [sd sr]. cbn [Z.ltb Z.compare Pos.compare Pos.compare_cont] in Em.
      apply bind_ok in Em as (todo & _ & Em). apply Ok_inj in Em. injection Em as <- _. eauto. }
    destruct Sr as [todo ->]. eapply works_planned; [exact Ej|exact Eo|rewrite Hy; exact Em|]. constructor. reflexivity.
  - apply works_unplanned. rewrite Hy. exact Em.
Qed.

(** C86: and a hash that tells the images apart: one that depends on the id. *)
Theorem C86_hash_of_the_id : forall pop first o y, picks pop -> picks first ->
  (forall id id' : identity F P, wy_hash y id = wy_hash y id' -> i_id (id_source_info id) = i_id (id_source_info id')) ->
  good_hash pop first o y.
Proof.
  intros pop first o y P1 P2 Hy a out t cfg p j Hp Hpr Hj id id' (i & m & X & Hi & HX & _ & ->) (i' & m' & X' & Hi' & HX' & _ & ->) H.
  destruct (C86_images_meet_conditions _ _ _ _ _ _ _ _ (snd (seeds_for t p a)) P1 P2 Hp Hj) as [Hid _].
  apply Hy in H. cbn [id_source_info] in H. pose proof (seeded_same_id _ _ Hid _ _ Hi Hi' H) as <-.
  cbn [id_wcs id_position_offset]. split; [|reflexivity]. exact (wcs_from_one _ _ _ _ _ _ _ HX HX').
Qed.
End C86.

(** ** A concrete run: the tile of C82, C84 and C85, described by dictionaries *)
Definition ex_coadd : dict (val f64) :=
  [("path", VText "a"); ("filename", VText "b"); ("tilename", VText "DES0001-0124"); ("band", VText "g");
   ("image_path", VText "x/DES0001-0124_r3p1_g.fits.fz"); ("image_ext", VText "sci"); ("image_flags", VInt 0);
   ("image_shape", VShape [4; 4]); ("position_offset", VInt 0); ("scale", VNum fone); ("magzp", VNum (fofZ 30))].
Definition ex_entry (exp : string) (expnum flags : Z) (located : bool) : dict (val f64) :=
  let name := ("y/D000000" ++ exp ++ "_g_c07_r3")%string in
  [("path", VText "c"); ("filename", VText "d"); ("tilename", VText "DES0001-0124"); ("band", VText "g");
   ("expnum", VInt expnum); ("ccdnum", VInt 7); ("magzp", VNum (fofZ 30)); ("scale", VNum fone);
   ("image_flags", VInt flags); ("position_offset", VInt 1); ("image_shape", VShape [17; 17]);
   ("image_path", VText (name ++ "_immasked.fits.fz")); ("image_ext", VText "sci");
   ("weight_path", VText (name ++ "_immasked.fits.fz")); ("weight_ext", VText "wgt");
   ("bmask_path", VText (name ++ "_immasked.fits.fz")); ("bmask_ext", VText "msk");
   ("bkg_path", VText (name ++ "_bkg.fits.fz")); ("bkg_ext", VText "bkg");
   ("galsim_psf_config", VOther 5)] ++ (if located then [("affine_wcs_config", VOther 1)] else []).
Definition ex_description : info f64 :=
  mkinfo ex_coadd [ex_entry "42" 42 0 true; ex_entry "43" 43 4 false; ex_entry "44" 44 0 true].
Definition ex_pixels (k : hdu_name) : result (img f64) :=
  let '(name, ext) := k in
  if String.eqb ext "bkg" then Ok (full 17 17 fone)
  else if String.eqb name "y/D00000042_g_c07_r3_immasked.fits.fz" then
    Ok (if String.eqb ext "sci" then mkimg 17 17 (fun r c => fofZ (2 * r + c + 1)) else full 17 17 fone)
  else if String.eqb name "y/D00000044_g_c07_r3_immasked.fits.fz" then
    Ok (if String.eqb ext "sci" then full 17 17 (fofZ 4) else full 17 17 (fofZ 3))
  else Raise IOError.
Definition ex_masks (k : hdu_name) : result (img Z) := Ok (full 17 17 0).
Definition ex_settings : settings f64 unit :=
  mkset (Some fone) (Some 4) (Some 1) (Some false) (Some SymOff) (Some false) (Some [1]) (Some [2; 8]) (Some [4])
    (Some (fdiv fone (fofZ 2))) (Some true) (Some None) (Some 1) (Some "affine") (Some fone) (Some "galsim") (Some [("g", tt)]) None
    (Some "noise").
Definition ex_cfg : @Go.config f64 :=
  mkcfg (Some (mkcc (Some 1) (Some 1) (Some 3) (Some "image"))) (Some (mksec None None)).
Definition ex_opts (level output : string) : Go.options := mkopt "c/des.yaml" "info.yaml" None output level (Some "3:4") 0.
Definition ex_neg (v : @pixel f64) : bool := match v with PF x => fltb x fzero | PI z => z <? 0 end.

Notation ex_file_type := (@fits_file f64 (@pixel f64) (list (list (@epoch_row f64))) string).
Definition ex_head : @Go.value f64 unit (affine f64) nat -> @Go.value f64 unit (affine f64) nat -> result unit := fun _ _ => Ok tt.
Definition ex_read (f : string) : result text :=
  if String.eqb f "c/des.yaml" then Ok [97; 58] else if String.eqb f "info.yaml" then Ok [98] else Raise IOError.
Definition ex_parse (t : text) : result (@Go.config f64) :=
  if list_eq_dec Z.eq_dec t [97; 58] then Ok ex_cfg else Raise OtherError.
Definition ex_parse_info (t : text) : result (info f64) :=
  if list_eq_dec Z.eq_dec t [98] then Ok ex_description else Raise OtherError.
Definition ex_set (t : text) : result (settings f64 unit) :=
  if list_eq_dec Z.eq_dec t [97; 58] then Ok ex_settings else Raise OtherError.
Definition ex_pick (l : list string) : string := match l with [] => "" | x :: _ => x end.
Definition ex_serial (y : way f64 nat) := serially (W := unit) ex_set (fun _ => PropWhole.ex_tile_world)
  (fun _ => t_coadd PropWhole.ex_whole) PropWhole.ex_libs (fun _ => Raise IOError) ex_pixels ex_masks PropSingleSlice.ex_ext (PF fzero)
  (fun _ v => v) ex_neg 50 (fun s => s) (fun g _ _ => (g, g + 1)) PropRun.demo_obj0 y.
Definition ex_go (y : way f64 nat) (o : Go.options) (tmpdir : option string) :=
  go ex_head (fun _ => Ok PropWhole.ex_affine) (fun _ => Ok 5%nat) ex_pick ex_pick (fun _ => Ok "{}") (fun _ => Raise IOError)
    (fun _ => Ok 20) ex_read ex_parse ex_parse_info (fun _ => Ok [123; 125]) (fun p => ("out", p))
    (@pixel f64) (list (@epoch_row f64)) (list (list (@epoch_row f64))) string (fun _ => Some [47]) (fun _ => [49])
    (fun _ => cw_image2sky (t_coadd PropWhole.ex_whole)) (fun _ x y => Ok (x, y, y, x)) (ex_serial y) (fun l => Ok l)
    (fun name _ _ => Ok name) ex_file_type (fun f => f) None (fun f => (true, Some f)) (fun f => Nat.leb 5 (length f))
    (OtherDevice [[]]) (mk_fsys (fun _ => None) (fun _ => true)) o tmpdir.

(** One run with the caches of the code, and one without caches, with another hash, in
    the reverse order, with a temporary directory and another name of the output. *)
Definition ex_way : way f64 nat := mkway (fun l => l) 1 None 1 code_sizes (fun id => i_id (id_source_info id)) [].
Definition ex_way' : way f64 nat :=
  mkway (@rev Z) 1 (Some 3) 5 no_caches (fun id => 7 - i_id (id_source_info id)) [("y/D00000042_g_c07_r3_immasked.fits.fz", "sci")].
Definition ex_run := ex_go ex_way (ex_opts "info" "o.fits") None.
Definition ex_run' := ex_go ex_way' (ex_opts "debug" "p.fits") (Some "tmp").

(** The slice in row 1 and column 1 has two epochs, and the pixels of C82. *)
Definition ex_good (f : option ex_file_type) : bool :=
  match f with
  | Some f =>
      existsb (fun x => match x with
                        | ("object_data", CObjects _ _ _ rows) =>
                            match nth_error rows 3 with Some (_, b) => o_nepoch b =? 2 | None => false end
                        | _ => false
                        end) f &&
      existsb (fun x => match x with
                        | ("image_cutouts", CImage _ _ _ h) =>
                            match dat _ h (3 * 9 + 2 * 3 + 1) with
                            | PF v => fltb (fabs (fsub (fmul v (fofZ 4)) (fofZ (2 * 2 + 1 + 21)))) (fdec 1 6)
                            | PI _ => false
                            end
                        | _ => false
                        end) f
  | None => false
  end.

Example C86_example_run :
  match ex_run with (s, Ok tt) => ex_good (file s ("out", "o.fits.fz")) | _ => false end = true.
Proof. vm_compute. reflexivity. Qed.

Example C86_example_run' :
  match ex_run' with (s, Ok tt) => ex_good (file s ("out", "p.fits.fz")) | _ => false end = true.
Proof. vm_compute. reflexivity. Qed.

Lemma ex_run_go :
  go ex_head (fun _ => Ok PropWhole.ex_affine) (fun _ => Ok 5%nat) ex_pick ex_pick (fun _ => Ok "{}") (fun _ => Raise IOError)
    (fun _ => Ok 20) ex_read ex_parse ex_parse_info (fun _ => Ok [123; 125]) (fun p => ("out", p))
    (@pixel f64) (list (@epoch_row f64)) (list (list (@epoch_row f64))) string (fun _ => Some [47]) (fun _ => [49])
    (fun _ => cw_image2sky (t_coadd PropWhole.ex_whole)) (fun _ x y => Ok (x, y, y, x)) (ex_serial ex_way) (fun l => Ok l)
    (fun name _ _ => Ok name) ex_file_type (fun f => f) None (fun f => (true, Some f)) (fun f => Nat.leb 5 (length f))
    (OtherDevice [[]]) (mk_fsys (fun _ => None) (fun _ => true)) (ex_opts "info" "o.fits") None = ex_run.
Proof. exact (@eq_refl _ (go ex_head (fun _ => Ok PropWhole.ex_affine) (fun _ => Ok 5%nat) ex_pick ex_pick (fun _ => Ok "{}") (fun _ => Raise IOError)
    (fun _ => Ok 20) ex_read ex_parse ex_parse_info (fun _ => Ok [123; 125]) (fun p => ("out", p))
    (@pixel f64) (list (@epoch_row f64)) (list (list (@epoch_row f64))) string (fun _ => Some [47]) (fun _ => [49])
    (fun _ => cw_image2sky (t_coadd PropWhole.ex_whole)) (fun _ x y => Ok (x, y, y, x)) (ex_serial ex_way) (fun l => Ok l)
    (fun name _ _ => Ok name) ex_file_type (fun f => f) None (fun f => (true, Some f)) (fun f => Nat.leb 5 (length f))
    (OtherDevice [[]]) (mk_fsys (fun _ => None) (fun _ => true)) (ex_opts "info" "o.fits") None)). Qed.

Lemma ex_run_go' :
  go ex_head (fun _ => Ok PropWhole.ex_affine) (fun _ => Ok 5%nat) ex_pick ex_pick (fun _ => Ok "{}") (fun _ => Raise IOError)
    (fun _ => Ok 20) ex_read ex_parse ex_parse_info (fun _ => Ok [123; 125]) (fun p => ("out", p))
    (@pixel f64) (list (@epoch_row f64)) (list (list (@epoch_row f64))) string (fun _ => Some [47]) (fun _ => [49])
    (fun _ => cw_image2sky (t_coadd PropWhole.ex_whole)) (fun _ x y => Ok (x, y, y, x)) (ex_serial ex_way') (fun l => Ok l)
    (fun name _ _ => Ok name) ex_file_type (fun f => f) None (fun f => (true, Some f)) (fun f => Nat.leb 5 (length f))
    (OtherDevice [[]]) (mk_fsys (fun _ => None) (fun _ => true)) (ex_opts "debug" "p.fits") (Some "tmp") = ex_run'.
Proof. exact (@eq_refl _ (go ex_head (fun _ => Ok PropWhole.ex_affine) (fun _ => Ok 5%nat) ex_pick ex_pick (fun _ => Ok "{}") (fun _ => Raise IOError)
    (fun _ => Ok 20) ex_read ex_parse ex_parse_info (fun _ => Ok [123; 125]) (fun p => ("out", p))
    (@pixel f64) (list (@epoch_row f64)) (list (list (@epoch_row f64))) string (fun _ => Some [47]) (fun _ => [49])
    (fun _ => cw_image2sky (t_coadd PropWhole.ex_whole)) (fun _ x y => Ok (x, y, y, x)) (ex_serial ex_way') (fun l => Ok l)
    (fun name _ _ => Ok name) ex_file_type (fun f => f) None (fun f => (true, Some f)) (fun f => Nat.leb 5 (length f))
    (OtherDevice [[]]) (mk_fsys (fun _ => None) (fun _ => true)) (ex_opts "debug" "p.fits") (Some "tmp"))). Qed.

(** The conditions of C86_same_file are met, so that the two files are the same. *)
Example C86_example :
  exists (i : info f64) p1 p2 f1 f2 s1' s2',
  ex_run = (s1', Ok tt) /\ ex_run' = (s2', Ok tt) /\
  named_output (ex_opts "info" "o.fits") i p1 /\ named_output (ex_opts "debug" "p.fits") i p2 /\
  same_file (@pixel f64) (list (@epoch_row f64)) (list (list (@epoch_row f64))) string (fun l => Ok l) f1 f2 /\
  file s1' (add_fz ("out", p1)) = Some f1 /\ file s2' (add_fz ("out", p2)) = Some f2.
Proof.
  pose proof C86_example_run as H1. pose proof C86_example_run' as H2.
  destruct ex_run as [s1 [[]|]] eqn:E1; [|discriminate H1]. destruct ex_run' as [s2 [[]|]] eqn:E2; [|discriminate H2].
  clear H1 H2.
  assert (Pk : picks ex_pick).
  { intros [|x l] N; [contradiction|]. left. reflexivity. }
  pose proof (fun y => C86_one_process ex_set (fun _ => PropWhole.ex_tile_world)
    (fun _ => t_coadd PropWhole.ex_whole) PropWhole.ex_libs (fun _ => Raise IOError) ex_pixels ex_masks PropSingleSlice.ex_ext
    (PF fzero) (fun _ v => v) ex_neg 50 (fun s => s) (fun g _ _ => (g, g + 1)) PropRun.demo_obj0 y (W := unit)) as Hs.
  destruct (C86_same_file ex_head (fun _ => Ok PropWhole.ex_affine) (fun _ => Ok 5%nat) (fun _ => Ok "{}") (fun _ => Raise IOError)
    (fun _ => Ok 20) ex_read ex_parse ex_parse_info (fun _ => Ok [123; 125]) (fun p => ("out", p))
    (list (list (@epoch_row f64))) string (fun _ => Some [47]) (fun _ => [49]) (fun _ x y => Ok (x, y, y, x)) (fun l => Ok l)
    (fun name _ _ => Ok name) ex_file_type (fun f => f) (fun f => (true, Some f)) (fun f => Nat.leb 5 (length f))
    ex_set (fun _ => PropWhole.ex_tile_world) (fun _ => t_coadd PropWhole.ex_whole) PropWhole.ex_libs (fun _ => Raise IOError)
    ex_pixels ex_masks PropSingleSlice.ex_ext (PF fzero) (fun _ v => v) ex_neg 50 (fun s => s) (fun g _ _ => (g, g + 1))
    PropRun.demo_obj0 PropProcess.C84_squares_float ex_pick ex_pick ex_pick ex_pick ex_way ex_way' (ex_serial ex_way) (ex_serial ex_way')
    None None (OtherDevice [[]]) (OtherDevice [[]]) (mk_fsys (fun _ => None) (fun _ => true)) s1
    (mk_fsys (fun _ => None) (fun _ => true)) s2 (ex_opts "info" "o.fits") (ex_opts "debug" "p.fits") None (Some "tmp"))
    as (i & p1 & p2 & f1 & f2 & _ & N1 & N2 & Sf & Q1 & Q2);
    [exact Pk|exact Pk|exact Pk|exact Pk| | | | | | | | | |exact (eq_trans ex_run_go E1)|exact (eq_trans ex_run_go' E2)|].
  - repeat split; cbn; intros; lia || auto.
  - repeat split; cbn; intros; try lia. apply Permutation_rev.
  - apply C86_hash_of_the_id; try exact Pk. intros id id' H. exact H.
  - apply C86_hash_of_the_id; try exact Pk. intros id id' H. apply (proj1 (Z.sub_cancel_l 7 _ _)). exact H.
  - apply Hs. reflexivity.
  - apply Hs. reflexivity.
  - repeat split; reflexivity.
  - cbn. lia.
  - intros ct cfg i (_ & _ & it & _ & Hi) d Hd. unfold ex_parse_info in Hi. destruct (list_eq_dec _ _ _); [|discriminate].
    apply Ok_inj in Hi. subst i. cbn [in_src ex_description] in Hd.
    destruct Hd as [<-|[<-|[<-|[]]]]; vm_compute; discriminate.
  - exists i, p1, p2, f1, f2, s1, s2. split; [reflexivity|]. split; [reflexivity|]. split; [exact N1|].
    split; [exact N2|]. split; [exact Sf|]. unfold put_there in Q1, Q2. cbn [snd] in Q1, Q2. split; [apply Q1|apply Q2].
Qed.

Print Assumptions C86_what_the_slices_are_made_from.
Print Assumptions C86_images_meet_conditions.
Print Assumptions C86_outcomes.
Print Assumptions C86_ways_agree.
Print Assumptions C86_all_complete.
Print Assumptions C86_same_file.
Print Assumptions C86_slices_in_file.
Print Assumptions C86_one_process.
Print Assumptions C86_hash_of_the_id.
