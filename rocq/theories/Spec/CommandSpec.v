(** Vocabulary for the whole command: which files are the same, and what of the
    description of a tile the images are made from. *)
From Coq Require Import ZArith List Bool String Permutation.
From Coq Require Import List.
From Verif Require Import Lib.Base Lib.Floats Lib.PyStr Lib.PyText Lib.PyDict Model.Files Model.SliceRange Model.Jobs
  Model.Cache Model.ImageInfo Model.ObjectData Model.Affine Model.Gaia Model.SeWcs Model.SliceInputs Model.Coadd
  Model.Writer Model.Metadata Model.Main Model.Piff Model.TileInfo Model.Go Model.SingleSlice Model.Epoch Model.Whole
  Model.Process Model.Command Spec.FilesSpec Spec.WriterSpec Spec.RunSpec Spec.GoSpec Spec.ProcessSpec.
Import ListNotations.
Open Scope string_scope.
Open Scope list_scope.
Open Scope Z_scope.

(** ** Files *)
Section Same.
Context {F : Type} (V E E' Stars : Type) (combine_epochs : list E -> result E').
Notation content := (@content F V E' Stars).
Notation fits_file := (@fits_file F V E' Stars).

(** The same content; the tables of epochs are put together from the same tables of
    slices, maybe in another order. *)
Definition same_content (a b : content) : Prop :=
  match a, b with
  | CImage _ _ _ h, CImage _ _ _ k => dim V h = dim V k /\ forall q, dat V h q = dat V k q
  | CEpochs _ _ _ e, CEpochs _ _ _ e' =>
      exists l l', Permutation l l' /\ combine_epochs l = Ok e /\ combine_epochs l' = Ok e'
  | _, _ => a = b
  end.

(** The same extensions, in the same order. *)
Definition same_file (f f' : fits_file) : Prop :=
  Forall2 (fun x y => fst x = fst y /\ same_content (snd x) (snd y)) f f'.

Context {C : Type} (bytes : fits_file -> C) (fpack : C -> bool * option C) (valid : C -> bool).

(** A run with directory [tmpdir] for temporary files, that went from [s] to [s'], has
    put [f] at the path of the output: what fpack made of it. (When fpack makes nothing,
    and the file is put together in another directory, an older output stays there.) *)
Definition put_there (s s' : fsys C) (tmpdir : option string) (out : path) (f : fits_file) : Prop :=
  match snd (fpack (bytes f)) with
  | Some c => file s' (add_fz out) = Some c /\ valid c = true
  | None => (exists d, tmpdir = Some d /\ d <> fst out) /\ file s' (add_fz out) = file s (add_fz out)
  end.
End Same.

(** Options that ask for the same output: the same input files, slices and noise images.
    The tag, the name of the output and the level of the log may differ. *)
Definition same_inputs (o o' : Go.options) : Prop :=
  op_config o = op_config o' /\ op_info o = op_info o' /\ op_range o = op_range o' /\ op_n_extra o = op_n_extra o'.

(** The file holds the results of a slice: pixels in its part of each image, its row of
    the table of objects, its part of the table of epochs. *)
Section Holds.
Context {F : Type} {FO : FloatOps F} (V E E' Stars : Type) (combine_epochs : list E -> result E')
  (zero : V) (cast : string -> V -> V).

Definition holds_slice (box psf_box : Z) (f : @fits_file F V E' Stars) (r : @results F V E) : Prop :=
  let npix ext := if String.eqb ext "psf" then (psf_box ^ 2)%Z else (box ^ 2)%Z in
  let i := r_i V E r in
  (exists l e, In (r_epochs V E r) l /\ combine_epochs l = Ok e /\ In ("epochs_info", CEpochs V E' Stars e) f) /\
  exists rows ob b,
    In ("object_data", CObjects V E' Stars rows) f /\ nth_error rows (Z.to_nat i) = Some (ob, b) /\ ob_id ob = i /\
    o_nepoch b = Z.of_nat (length (r_weights V E r)) /\
    (r_weights V E r <> [] ->
       o_ncutout b = 1 /\
       o_nepoch_eff b = fdiv (fsum (r_weights V E r)) (running_max (r_weights V E r)) /\
       o_psf_sigma b = r_psf_sigma V E r /\ o_start_row b = i * box ^ 2 /\ o_psf_start_row b = i * psf_box ^ 2 /\
       forall ext info a, belongs V E r ext info a ->
         exists h, In (ext, CImage V E' Stars h) f /\
           forall y x, inb a y x -> dat V h (i * npix ext + y * ncols a + x) = cast info (px a y x)) /\
    (r_weights V E r = [] ->
       o_nepoch_eff b = fzero /\
       forall ext h q, In (ext, CImage V E' Stars h) f -> in_region i (npix ext) q -> dat V h q = zero).
End Holds.

(** ** What the images are made from *)
Section Made.
Context {F : Type} {FO : FloatOps F} {W P K : Type}.
Notation value := (@Go.value F W (affine F) P).

(** What is under a key of an entry of the file, if it has the right type. *)
Definition maybe_text (d : dict (val F)) (k : string) (v : option string) : Prop :=
  v = match dget d k with Some (VText s) => Some s | _ => None end.

Definition hdu_at (d : dict (val F)) (pk ek : string) (n : hdu_name) : Prop :=
  text_at d pk (fst n) /\ text_at d ek (snd n).

(** [im] is the image of the source with number [n], from 0, that has the entry [d]. *)
Definition image_for (affine_wcs : value -> result (affine F)) (gsobject : value -> result P)
  (se : Piff.se_config (F := F)) (n : nat) (d : dict (val F)) (im : image F P) : Prop :=
  i_id im = Z.of_nat n + 1 /\
  (exists f, whole_at d "image_flags" f /\ flags_with_due se d f (i_flags im)) /\
  whole_at d "position_offset" (i_offset im) /\
  hdu_at d "image_path" "image_ext" (i_image im) /\ hdu_at d "bkg_path" "bkg_ext" (i_bkg im) /\
  hdu_at d "weight_path" "weight_ext" (i_weight im) /\ hdu_at d "bmask_path" "bmask_ext" (i_bmask im) /\
  whole_at d "ccdnum" (i_ccdnum im) /\ number_at d "magzp" (i_magzp im) /\
  let s := i_info im in
  s_image_path s = Some (fst (i_image im)) /\ s_image_ext s = Some (snd (i_image im)) /\
  maybe_text d "head_path" (s_head_path s) /\ maybe_text d "piff_path" (s_piff_path s) /\
  maybe_text d "psfex_path" (s_psfex_path s) /\ s_ccdnum s = Some (i_ccdnum im) /\
  (forall c, dget d "affine_wcs_config" = Some c -> exists a, affine_wcs (Plain c) = Ok a /\ s_affine_wcs s = Some a) /\
  (forall c, dget d "galsim_psf_config" = Some c -> exists g, gsobject (Plain c) = Ok g /\ s_galsim_psf s = Some g) /\
  s_image_shape s = match dget d "image_shape" with Some (VShape [r; c]) => Some (r, c) | _ => None end.

(** The options for the images are those of the configuration. *)
Definition options_from (st : settings F K) (op : Epoch.options F P) : Prop :=
  st_frac_buffer st = Some (op_frac_buffer op) /\ st_edge_buffer st = Some (op_edge_buffer op) /\
  st_mask_tape_bumps st = Some (op_tape_bumps op) /\ st_mask_piff_failure st = Some (op_piff_failure op) /\
  st_wcs_color st = Some (op_color op) /\
  (exists n, st_wcs_type st = Some n /\ op_wcs op = Name n) /\
  (exists n, st_psf_type st = Some n /\ op_psf op = Name n).

Definition config_from (st : settings F K) (sc : @SingleSlice.se_config F) : Prop :=
  st_gaia_star_masks st = sc_gaia_star_masks sc /\ st_reject_outliers st = Some (sc_reject_outliers sc) /\
  st_symmetrize_masking st = Some (sc_symmetrize_masking sc) /\
  st_copy_masked_edges st = Some (sc_copy_masked_edges sc) /\
  st_noise_interp_flags st = Some (sc_noise_interp_flags sc) /\
  st_spline_interp_flags st = Some (sc_spline_interp_flags sc) /\
  st_bad_image_flags st = Some (sc_bad_image_flags sc) /\
  st_max_masked_fraction st = Some (sc_max_masked_fraction sc).

(** The way of a run is one that the command offers. *)
Definition how_of (y : way F P) : how := mk_how (wy_order y) (wy_jobs y) (wy_chunks y) (wy_cap y).
Definition valid_way (y : way F P) : Prop := valid_how (how_of y).

(** The work on the slices has one of the outcomes that it can have when it is done in
    way [y]: there is one for each schedule of the processes. *)
Definition done_in {O : Type}
  (works : way F P -> @Go.entries F W (affine F) P -> @args F value -> @prepared F value -> result O -> Prop)
  (y : way F P)
  (work : @Go.entries F W (affine F) P -> @Go.config F -> @args F value -> @prepared F value -> result O) : Prop :=
  forall t cfg a p, works y t a p (work t cfg a p).

(** Hashes tell the images of the run apart (C84). *)
Definition good_hash (plan : result (@args F value * path * @Go.entries F W (affine F) P * @Go.config F))
  (prepare : @args F value -> result (@prepared F value))
  (make_job : @Go.entries F W (affine F) P -> @args F value -> result (job F P))
  (seeds : @Go.entries F W (affine F) P -> @prepared F value -> @args F value -> list src_seeds) (y : way F P) : Prop :=
  forall a out t cfg p j, plan = Ok (a, out, t, cfg) -> prepare a = Ok p -> make_job t a = Ok j ->
  hashes_tell_apart (jb_tile j) (seeded_images (jb_images j) (seeds t p a)) (wy_hash y).

(** All masks are read from files that have a name. *)
Definition masks_have_names (i : info F) : Prop :=
  forall d, In d (in_src i) -> dget d "bmask_path" <> Some (VText "").
End Made.
