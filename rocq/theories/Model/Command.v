(** Model of the whole command: Model/Go.v, where the work on the slices is done by the
    processes of Model/Pool.v on the tile that is described by the dictionaries.

    The keys of the configuration that are read for a slice are read once here; in the
    code they are read again for every slice, so that without slices a missing key is
    not noticed. *)
From Coq Require Import ZArith List Bool String.
From Coq Require Import List.
From Verif Require Import Lib.Base Lib.Floats Lib.PyStr Lib.PyText Lib.PyDict Model.Files Model.SliceRange Model.Jobs
  Model.Cache Model.ImageInfo Model.ObjectData Model.Affine Model.Gaia Model.SeImage Model.SeWcs Model.SliceInputs Model.Coadd Model.Writer
  Model.Metadata Model.Main Model.TileInfo Model.Go Model.SingleSlice Model.Epoch Model.Whole Model.Process
  Model.Sched Model.Pool.
Import ListNotations.
Open Scope string_scope.
Open Scope list_scope.
Open Scope Z_scope.

Section Command.
(** [W] is the WCS of the header of the coadd, [P] a PSF model, [K] the options for
    drawing PSFs, [RNG] the generator of a slice and [rng] the one of the run. *)
Context {F : Type} {FO : FloatOps F} {W P K RNG rng : Type}.
Notation value := (@Go.value F W (affine F) P).
Notation entries := (@Go.entries F W (affine F) P).
Notation args := (@Main.args F value).
Notation prepared := (@Main.prepared F value).
Notation output := (@out F (@pixel F) (list (@epoch_row F))).

(** The section 'single_epoch' of the configuration, as it is read in
    _pizza_cutter.py:314-332 and 333-364, and 'coadding_weight' of the section 'coadd',
    191. [None] is a missing key. *)
Record settings := mkset {
  st_frac_buffer : option F;
  st_se_delta : option Z;                       (* se_wcs_interp_delta *)
  st_coadd_delta : option Z;                    (* coadd_wcs_interp_delta *)
  st_reject_outliers : option bool;
  st_symmetrize_masking : option (@symmetrize_option F);
  st_copy_masked_edges : option bool;
  st_noise_interp_flags : option (list Z);
  st_spline_interp_flags : option (list Z);
  st_bad_image_flags : option (list Z);
  st_max_masked_fraction : option F;
  st_mask_tape_bumps : option bool;
  st_mask_piff_failure : option (option (F * Z));  (* max_abs_T_diff and grid_size, or None *)
  st_edge_buffer : option Z;
  st_wcs_type : option string;
  st_wcs_color : option F;
  st_psf_type : option string;
  st_psf_kwargs : option (dict K);
  st_gaia_star_masks : option (@gaia_config F);
  st_coadding_weight : option string
}.

(** ** The entries of src_info *)

(** What is under a key; what has another type is taken to be missing. *)
Definition text_of (d : dict value) (k : string) : option string :=
  match dget d k with Some (Plain (VText s)) => Some s | _ => None end.

(** The keys that the constructor of an image object reads, _se_image.py:540-600. *)
Definition source_of (d : dict value) : SeWcs.source (F := F) (P := P) :=
  SeWcs.mksrc (text_of d "image_path") (text_of d "image_ext") (text_of d "head_path") (text_of d "piff_path")
    (int_key d "ccdnum") (text_of d "psfex_path")
    (match dget d "affine_wcs" with Some (AffineWcs a) => Some a | _ => None end)
    (match dget d "galsim_psf" with Some (Psf g) => Some g | _ => None end)
    (match dget d "image_shape" with Some (Plain (VShape [r; c])) => Some (r, c) | _ => None end).

(** The file and the extension under two keys. *)
Definition hdu_of (d : dict value) (pk ek : string) : result hdu_name :=
  p <- text_key d pk ;; e <- text_key d ek ;; Ok (p, e).

(** An entry of info['src_info'], as it is used in _coadd_slices.py:214-264 and
    _se_image.py:742-848. The seeds are put in later (_pizza_cutter.py:554-557). *)
Definition image_of (d : dict value) : result (image F P) :=
  id <- whole_key d "image_id" ;;
  flags <- whole_key d "image_flags" ;;
  offset <- whole_key d "position_offset" ;;
  im <- hdu_of d "image_path" "image_ext" ;;
  bkg <- hdu_of d "bkg_path" "bkg_ext" ;;
  wgt <- hdu_of d "weight_path" "weight_ext" ;;
  bmask <- hdu_of d "bmask_path" "bmask_ext" ;;
  ccdnum <- whole_key d "ccdnum" ;;
  magzp <- number_key d "magzp" ;;
  Ok (mkimage id flags offset (source_of d) im bkg wgt bmask ccdnum magzp [] 0).

(** ** What the slices are made from *)
Record job := mkjob {
  jb_tile : Whole.tile F P;
  jb_images : list (image F P);
  jb_config : @SingleSlice.se_config F;
  jb_weight : string;
  jb_info : @SingleSlice.tile_info F
}.

(** The settings in the text of a configuration; the libraries for given options for
    PSFs; the coadd WCS behind a value; scipy and numpy; a star catalogue; the files. *)
Variables (read_settings : text -> result settings)
          (world_for : K -> world F P)
          (wcs_of : value -> coadd_wcs F)
          (tables : table_libs F)
          (catalogue : string -> result (list (@star F)))
          (disk_pixels : hdu_name -> result (img F)) (disk_masks : hdu_name -> result (img Z)).

(** What make_des_pizza_slices and _coadd_single_slice hand on, _pizza_cutter.py:176-196,
    313-364, 379-396. *)
Definition make_job (t : entries) (a : args) : result job :=
  st <- read_settings (a_config value a) ;;
  band <- text_key (en_coadd t) "band" ;;
  weight <- key (st_coadding_weight st) ;;
  frac <- key (st_frac_buffer st) ;;
  se_delta <- key (st_se_delta st) ;;
  coadd_delta <- key (st_coadd_delta st) ;;
  reject <- key (st_reject_outliers st) ;;
  symm <- key (st_symmetrize_masking st) ;;
  edges <- key (st_copy_masked_edges st) ;;
  nf <- key (st_noise_interp_flags st) ;;
  sf <- key (st_spline_interp_flags st) ;;
  bf <- key (st_bad_image_flags st) ;;
  mmf <- key (st_max_masked_fraction st) ;;
  tape <- key (st_mask_tape_bumps st) ;;
  piff <- key (st_mask_piff_failure st) ;;
  edge <- key (st_edge_buffer st) ;;
  wcs_type <- key (st_wcs_type st) ;;
  color <- key (st_wcs_color st) ;;
  psf_type <- key (st_psf_type st) ;;
  kws <- key (st_psf_kwargs st) ;;
  kw <- key (dget kws band) ;;
  images <- mapM image_of (en_src t) ;;
  w <- key (a_wcs value a) ;;
  offset <- key (a_offset value a) ;;
  stars <- match a_stars value a with
           | None => Ok None
           | Some f => l <- catalogue f ;; Ok (Some l)
           end ;;
  Ok (mkjob
        (Whole.mktile (world_for kw) (mkoptions (Name psf_type) (Name wcs_type) color frac edge tape piff)
           (map (entry_of disk_pixels disk_masks) images) (wcs_of w) offset tables se_delta coadd_delta)
        images
        (mkseconfig (st_gaia_star_masks st) reject symm edges nf sf bf mmf)
        weight
        (SingleSlice.mktile stars (a_shape value a) offset)).

(** ** The work on the slices *)

(** The rest of the libraries; storing a pixel; the seed of the run and its generator;
    what _build_object_data puts in the columns that the slices change. *)
Variables (libs : externals (F := F) (RNG := RNG))
          (zero : @pixel F) (cast : string -> @pixel F -> @pixel F) (isneg : @pixel F -> bool)
          (seed : Z) (init : Z -> rng) (randint : rng -> Z -> Z -> Z * rng) (obj0 : Z -> @obj F).

(** How a run is done: what its output should not depend on. *)
Record way := mkway {
  wy_order : list Z -> list Z;          (* the order along the space-filling curve *)
  wy_jobs : Z;                          (* n_jobs *)
  wy_chunks : option Z;                 (* n_chunks *)
  wy_cap : nat;                         (* places in the queue of results *)
  wy_sizes : sizes;                     (* of the caches *)
  wy_hash : identity F P -> Z;          (* the hash of an image object *)
  wy_loaded : list hdu_name             (* WCSs that are loaded for the table of images *)
}.

(** A slice in a process with caches. *)
Definition slice_work (y : way) (j : job) (objs : list (@object F)) (n_extra : Z) (seeds : list src_seeds)
  : Z * Z -> caches F P -> result (@results F (@pixel F) (list (@epoch_row F))) * caches F P :=
  m_single_slice (wy_hash y) (wy_sizes y) (jb_tile j) disk_pixels disk_masks (tile_externals (jb_tile j) libs)
    (seeded_images (jb_images j) seeds) (jb_config j) (jb_weight j) (jb_info j) objs n_extra.

(** 559-647: the possible outcomes of a plan, from empty images of box sizes [box] and
    [psf_box]. When processes are used there is one for each schedule; the exception is
    the one of the slice whose result is got first. *)
Inductive runs (y : way) (j : job) (a : args) (objs : list (@object F)) (box psf_box : Z) (ss : list src_seeds)
  : plan -> result output -> Prop :=
| runs_serial : forall todo r,
    pserial _ _ _ _ (slice_work y j objs (a_n_extra value a) ss)
      (process_one (@pixel F) cast isneg (list (@epoch_row F)) (box ^ 2) (psf_box ^ 2))
      (init_out (@pixel F) zero (list (@epoch_row F)) (Z.of_nat (length objs)) box psf_box (a_n_extra value a) obj0)
      todo (after_image_info (wy_sizes y) (jb_tile j) (wy_loaded y)) = r ->
    runs y j a objs box psf_box ss (Serial todo) r
| runs_done : forall n_jobs n_todo chunks s o,
    psteps _ _ _ _ (slice_work y j objs (a_n_extra value a) ss)
      (process_one (@pixel F) cast isneg (list (@epoch_row F)) (box ^ 2) (psf_box ^ 2)) forgets_entries (wy_cap y)
      (pstart (Z.to_nat n_jobs) chunks n_todo
         (init_out (@pixel F) zero (list (@epoch_row F)) (Z.of_nat (length objs)) box psf_box (a_n_extra value a) obj0)
         (after_image_info (wy_sizes y) (jb_tile j) (wy_loaded y))) s ->
    ps_main s = Done o ->
    runs y j a objs box psf_box ss (Parallel n_jobs n_todo chunks) (Ok o)
| runs_raised : forall n_jobs n_todo chunks s o e,
    psteps _ _ _ _ (slice_work y j objs (a_n_extra value a) ss)
      (process_one (@pixel F) cast isneg (list (@epoch_row F)) (box ^ 2) (psf_box ^ 2)) forgets_entries (wy_cap y)
      (pstart (Z.to_nat n_jobs) chunks n_todo
         (init_out (@pixel F) zero (list (@epoch_row F)) (Z.of_nat (length objs)) box psf_box (a_n_extra value a) obj0)
         (after_image_info (wy_sizes y) (jb_tile j) (wy_loaded y))) s ->
    ps_main s = Raised o ->
    runs y j a objs box psf_box ss (Parallel n_jobs n_todo chunks) (Raise e).

(** _coadd_and_write_images, 514-647: the possible outcomes of the work on the slices
    when it is done in way [y]. The sizes are those of the first row (537-540). *)
Inductive works (y : way) (t : entries) (a : args) (p : prepared) : result output -> Prop :=
| works_unread : forall e, make_job t a = Raise e -> works y t a p (Raise e)
| works_empty : p_objects value p = [] -> works y t a p (Raise IndexError)
| works_unplanned : forall e,
    make_plan rng init randint (wy_order y) (a_slices value a) (Z.of_nat (length (p_objects value p))) seed
      (Z.of_nat (length (en_src t))) (a_n_extra value a) (wy_jobs y) (wy_chunks y) = Raise e ->
    works y t a p (Raise e)
| works_planned : forall j o rest plan ss r,
    make_job t a = Ok j ->
    p_objects value p = o :: rest ->
    make_plan rng init randint (wy_order y) (a_slices value a) (Z.of_nat (length (p_objects value p))) seed
      (Z.of_nat (length (en_src t))) (a_n_extra value a) (wy_jobs y) (wy_chunks y) = Ok (plan, ss) ->
    runs y j a (p_objects value p) (ob_box_size o) (ob_psf_box_size o) ss plan r ->
    works y t a p r.

(** The same for one process, 622-644, as a function. *)
Definition serially (y : way) (t : entries) (c : @Go.config F) (a : args) (p : prepared) : result output :=
  j <- make_job t a ;;
  match p_objects value p with
  | [] => Raise IndexError
  | ob :: _ =>
      ' (plan, ss) <- make_plan rng init randint (wy_order y) (a_slices value a) (Z.of_nat (length (p_objects value p))) seed
                        (Z.of_nat (length (en_src t))) (a_n_extra value a) 1 (wy_chunks y) ;;
      match plan with
      | Serial todo =>
          pserial _ _ _ _ (slice_work y j (p_objects value p) (a_n_extra value a) ss)
            (process_one (@pixel F) cast isneg (list (@epoch_row F)) (ob_box_size ob ^ 2) (ob_psf_box_size ob ^ 2))
            (init_out (@pixel F) zero (list (@epoch_row F)) (Z.of_nat (length (p_objects value p))) (ob_box_size ob)
               (ob_psf_box_size ob) (a_n_extra value a) obj0)
            todo (after_image_info (wy_sizes y) (jb_tile j) (wy_loaded y))
      | Parallel _ _ _ => Raise AssertionError
      end
  end.
End Command.
Arguments settings : clear implicits.
Arguments job : clear implicits.
Arguments way : clear implicits.
