(** Vocabulary for the command line tool: what of the two input files reaches the
    output. *)
From Coq Require Import ZArith List Bool String.
From Coq Require Import List.
From Verif Require Import Lib.Base Lib.Floats Lib.PyStr Lib.PyDict Model.ImageInfo Model.Piff Model.DesInfo Model.TileInfo
  Model.Go Spec.PiffSpec Spec.DesInfoSpec.
Import ListNotations.
Open Scope string_scope.
Open Scope list_scope.
Open Scope Z_scope.

Section S.
Context {F : Type} {FO : FloatOps F} {W A G : Type}.
Notation value := (@value F W A G).

(** The entry [d'] has under all keys but those listed what was in the file. *)
Definition kept_but (keys : list string) (d : dict (val F)) (d' : dict value) : Prop :=
  forall k, ~ In k keys -> dget d' k = option_map Plain (dget d k).

(** The flag bits that are due for a source of the file: failed cuts on its PSF
    model, and an ignored CCD. *)
Definition bit_due (cfg : se_config (F := F)) (d : dict (val F)) (k : Z) : Prop :=
  (exists cuts r, sc_cuts cfg = Some cuts /\ dget d "piff_info" = Some (VPiff r) /\
     piff_cut_fails (pr_info r) cuts k) \/
  (k = 30 /\ exists ccds n, sc_ignored cfg = Some ccds /\ dget d "ccdnum" = Some (VInt n) /\ In n ccds).

(** [f'] is [f] with the bits that are due. *)
Definition flags_with_due (cfg : se_config (F := F)) (d : dict (val F)) (f f' : Z) : Prop :=
  forall k, 0 <= k -> (Z.testbit f' k = true <-> Z.testbit f k = true \/ bit_due cfg d k).

(** The entry of the coadd that is worked with, given that of the file. *)
Definition coadd_handed_over (d : dict (val F)) (d' : dict value) : Prop :=
  kept_but ["image_wcs"; "affine_wcs"; "image_id"] d d' /\
  dget d' "image_id" = Some (Plain (VInt 0)).

(** The same for the source with number [n], from 0. *)
Definition source_handed_over (cfg : se_config (F := F)) (n : nat) (d : dict (val F)) (d' : dict value) : Prop :=
  kept_but ["image_flags"; "affine_wcs"; "galsim_psf"; "image_id"] d d' /\
  dget d' "image_id" = Some (Plain (VInt (Z.of_nat n + 1))) /\
  (forall f, dget d "image_flags" = Some (VInt f) ->
     exists f', dget d' "image_flags" = Some (Plain (VInt f')) /\ flags_with_due cfg d f f') /\
  ((forall f, dget d "image_flags" <> Some (VInt f)) -> forall f, dget d' "image_flags" <> Some (Plain (VInt f))).

Definition handed_over (cfg : se_config (F := F)) (i : info F) (t : @entries F W A G) : Prop :=
  coadd_handed_over (in_coadd i) (en_coadd t) /\
  length (en_src t) = length (in_src i) /\
  forall n d, nth_error (in_src i) n = Some d ->
    exists d', nth_error (en_src t) n = Some d' /\ source_handed_over cfg n d d'.

(** ** The description that is checked *)

(** What is under a key that may hold a path. *)
Definition path_at (d : dict (val F)) (k : string) (v : pathval) : Prop :=
  match dget d k with
  | None => v = Missing
  | Some VNone => v = Null
  | Some (VText s) => v = Path s
  | Some _ => False
  end.

Definition text_at (d : dict (val F)) (k s : string) : Prop := dget d k = Some (VText s).
Definition whole_at (d : dict (val F)) (k : string) (z : Z) : Prop := dget d k = Some (VInt z).
Definition number_at (d : dict (val F)) (k : string) (x : F) : Prop :=
  dget d k = Some (VNum x) \/ exists z, dget d k = Some (VInt z) /\ x = fofZ z.

Definition describes_source (d : dict (val F)) (e : se_entry) : Prop :=
  text_at d "band" (se_band e) /\ text_at d "tilename" (se_tilename e) /\
  whole_at d "expnum" (se_expnum e) /\ whole_at d "ccdnum" (se_ccdnum e) /\
  path_at d "bkg_path" (se_bkg_path e) /\ path_at d "bmask_path" (se_bmask_path e) /\
  path_at d "image_path" (se_image_path e) /\ path_at d "piff_path" (se_piff_path e) /\
  path_at d "psfex_path" (se_psfex_path e) /\ path_at d "psf_path" (se_psf_path e) /\
  path_at d "seg_path" (se_seg_path e) /\ path_at d "weight_path" (se_weight_path e) /\
  path_at d "head_path" (se_head_path e).

Definition describes (i : info F) (t : DesInfo.tile_info (F := F)) : Prop :=
  path_at (in_coadd i) "image_path" (ti_image_path t) /\ path_at (in_coadd i) "seg_path" (ti_seg_path t) /\
  path_at (in_coadd i) "bmask_path" (ti_bmask_path t) /\ path_at (in_coadd i) "psf_path" (ti_psf_path t) /\
  path_at (in_coadd i) "gaia_stars_file" (ti_gaia_stars_file t) /\ path_at (in_coadd i) "cat_path" (ti_cat_path t) /\
  number_at (in_coadd i) "scale" (ti_scale t) /\ text_at (in_coadd i) "band" (ti_band t) /\
  Forall2 describes_source (in_src i) (ti_src_info t).

(** The file describes one tile in one band, and all its file names say so. *)
Definition sane (i : info F) : Prop := exists t tile band, describes i t /\ consistent t tile band.

End S.

From Verif Require Import Model.Metadata Model.Main Model.SliceRange Model.Cli Spec.FilesSpec Spec.LoadInfoSpec.

Section A.
Context {F : Type} {FO : FloatOps F} {W A G : Type}.

(** The files that are named on the command line can be read, and hold the
    configuration and the information on the tile. *)
Definition inputs (read : string -> result text) (parse_config : text -> result (@config F))
  (parse_info : text -> result (info F)) (o : options) (config_text : text) (cfg : @config F) (i : info F) : Prop :=
  read (op_config o) = Ok config_text /\ parse_config config_text = Ok cfg /\
  exists info_text, read (op_info o) = Ok info_text /\ parse_info info_text = Ok i.

(** [p] is the name of the output for the tile and the options (see C58). *)
Definition named_output (o : options) (i : info F) (p : string) : Prop :=
  exists tile band, dget (in_coadd i) "tilename" = Some tile /\ text_at (in_coadd i) "band" band /\
  forall t, tile = VText t -> meds_path (op_output o) (op_config o) (op_tag o) (op_range o) t band = Ok p.

(** The arguments [a] are those for the tile [i], from which [t] was made. *)
Definition args_for (i : info F) (t : @entries F W A G) (cc : coadd_config) (config_text json : text) (o : options)
  (a : @args F (@value F W A G)) : Prop :=
  a_config _ a = config_text /\ a_json _ a = json /\
  a_central _ a = cc_central cc /\ a_buffer _ a = cc_buffer cc /\ a_psf_box _ a = cc_psf_box cc /\
  (forall w, cc_wcs_type cc = Some w -> a_wcs _ a = dget (en_coadd t) (w ++ "_wcs")%string) /\
  (forall r c, dget (in_coadd i) "image_shape" = Some (VShape [r; c]) -> a_shape _ a = Some (r, c)) /\
  (forall z, dget (in_coadd i) "position_offset" = Some (VInt z) -> a_offset _ a = Some z) /\
  (forall s, dget (in_coadd i) "gaia_stars_file" = Some (VText s) -> a_stars _ a = Some s) /\
  (dget (in_coadd i) "gaia_stars_file" = None \/ dget (in_coadd i) "gaia_stars_file" = Some VNone ->
   a_stars _ a = None) /\
  a_slices _ a = match op_range o with None => SNone | Some s => SStr s end /\
  a_n_extra _ a = op_n_extra o.

(** The rows of the table of images, from the entries of the file. *)
Definition ext_at (d : dict (val F)) (k s : string) : Prop := exists x, text_at d k x /\ cut 3 x s.

Definition coadd_recorded (d : dict (val F)) (r : @im_row F) : Prop :=
  r_id r = 0 /\ whole_at d "image_flags" (r_flags r) /\
  number_at d "magzp" (r_magzp r) /\ number_at d "scale" (r_scale r) /\ number_at d "position_offset" (r_offset r).

Definition source_recorded (cfg : se_config (F := F)) (n : nat) (d : dict (val F)) (r : @im_row F) : Prop :=
  r_id r = Z.of_nat n + 1 /\
  (exists f, whole_at d "image_flags" f /\ flags_with_due cfg d f (r_flags r)) /\
  number_at d "magzp" (r_magzp r) /\ number_at d "scale" (r_scale r) /\ number_at d "position_offset" (r_offset r) /\
  text_at d "image_path" (r_image_path r) /\ text_at d "weight_path" (r_weight_path r) /\
  text_at d "bmask_path" (r_bmask_path r) /\ text_at d "bkg_path" (r_bkg_path r) /\
  ext_at d "image_ext" (r_image_ext r) /\ ext_at d "weight_ext" (r_weight_ext r) /\
  ext_at d "bmask_ext" (r_bmask_ext r) /\ ext_at d "bkg_ext" (r_bkg_ext r).

(** The directory in which the output is put together. *)
Definition staging_dir (tmpdir : option string) (dir : string) : string :=
  match tmpdir with Some d => d | None => dir end.

End A.
