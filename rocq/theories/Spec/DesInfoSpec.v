(** What makes the description of a tile consistent. *)
From Coq Require Import ZArith String Ascii List.
From Verif Require Import Lib.Base Lib.Floats Lib.PyStr Model.DesInfo.
Import ListNotations.
Open Scope string_scope.
Open Scope list_scope.
Open Scope Z_scope.

(** The character does not occur in the text. *)
Definition free_of (c : ascii) (s : string) : Prop := forall a b, s <> (a ++ String c b)%string.

(** [b] is the name of the file with path [p]. *)
Definition file_name (p b : string) : Prop :=
  free_of "/" b /\ (p = b \/ exists dir, p = (dir ++ "/" ++ b)%string).

Definition starts (p s : string) : Prop := exists rest, s = (p ++ rest)%string.
Definition ends (p s : string) : Prop := exists pre, s = (pre ++ p)%string.

(** [t] is the part of the file name before the first underscore. *)
Definition tile_part (p t : string) : Prop :=
  free_of "_" t /\ exists b, file_name p b /\ (b = t \/ starts (t ++ "_")%string b).

(** The key holds the (non-empty) path [p]. *)
Definition names (v : pathval) (p : string) : Prop := v = Path p /\ p <> ""%string.

(** The files of the coadd that must be named after the tile. *)
Definition coadd_file {F} (t : tile_info (F := F)) (v : pathval) : Prop :=
  v = ti_image_path t \/ v = ti_seg_path t \/ v = ti_bmask_path t \/ v = ti_psf_path t \/
  v = ti_gaia_stars_file t.

(** The files of a source that must be named after the exposure and CCD. *)
Definition se_file (e : se_entry) (v : pathval) : Prop :=
  v = se_bkg_path e \/ v = se_bmask_path e \/ v = se_image_path e \/ v = se_piff_path e \/
  v = se_psfex_path e \/ v = se_psf_path e \/ v = se_seg_path e \/ v = se_weight_path e.

(** All files, bands and names belong to one tile and one band. *)
Definition consistent {F} {FO : FloatOps F} (t : tile_info (F := F)) (tile band : string) : Prop :=
  (exists v p, coadd_file t v /\ names v p) /\
  (forall v p, coadd_file t v -> names v p -> tile_part p tile) /\
  feqb (ti_scale t) fone = true /\
  ti_band t = band /\ (forall e, In e (ti_src_info t) -> se_band e = band) /\
  (forall p, names (ti_bmask_path t) p \/ names (ti_image_path t) p ->
     ends ("_" ++ band ++ ".fits.fz")%string p \/ ends ("_" ++ band ++ ".fits")%string p) /\
  (forall p, names (ti_cat_path t) p -> ends ("_" ++ band ++ "_cat.fits")%string p) /\
  (forall p, names (ti_psf_path t) p -> ends ("_" ++ band ++ "_psfcat.psf")%string p) /\
  (forall p, names (ti_seg_path t) p ->
     ends ("_" ++ band ++ "_segmap.fits")%string p \/ ends ("_" ++ band ++ "_segmap.fits.fz")%string p) /\
  (forall e v p b, In e (ti_src_info t) -> se_file e v -> names v p -> file_name p b ->
     starts ("D" ++ dec_pad 8 (se_expnum e) ++ "_" ++ band ++ "_c" ++ dec_pad 2 (se_ccdnum e) ++ "_")%string b) /\
  (forall e, In e (ti_src_info t) -> se_tilename e = tile) /\
  (forall e p b, In e (ti_src_info t) -> names (se_head_path e) p -> file_name p b ->
     starts tile b /\
     ends ("_" ++ band ++ "_c" ++ dec_pad 2 (se_ccdnum e) ++ "_scamp.ohead")%string b).

(** A way to pick an element of a set: any element, whatever the order. *)
Definition picks (pick : list string -> string) : Prop := forall l, l <> [] -> In (pick l) l.
