(** Vocabulary for the preparation of a tile. *)
From Coq Require Import ZArith List Bool String.
From Coq Require Import List.
From Verif Require Import Lib.Base Lib.Floats Lib.PyDict Model.TileInfo Spec.DesInfoSpec.
Import ListNotations.
Open Scope string_scope.
Open Scope list_scope.
Open Scope Z_scope.

Section S.
Context {F : Type}.

(** The dictionary [d'] is [d] with the entries of [settings] put in. *)
Definition extended (d settings d' : dict (val F)) : Prop :=
  forall k, dget d' k = match dget settings k with Some v => Some v | None => dget d k end.

(** What is put into the entry of a source whose image is at [image] and whose
    PSFEx model is at [psf]. *)
Definition source_settings (image psf : val F) (scale : F) : dict (val F) :=
  [ ("image_shape", VShape [4096; 2048]); ("image_flags", VInt 0);
    ("image_ext", VText "sci");
    ("weight_path", image); ("weight_ext", VText "wgt");
    ("bmask_path", image); ("bmask_ext", VText "msk");
    ("bkg_ext", VText "sci"); ("position_offset", VInt 1);
    ("psfex_path", psf); ("scale", VNum scale) ].

Definition coadd_settings {FO : FloatOps F} (image : val F) (g : geom F) : dict (val F) :=
  [ ("position_offset", VInt 1); ("image_ext", VText "sci");
    ("weight_path", image); ("weight_ext", VText "wgt");
    ("bmask_path", image); ("bmask_ext", VText "msk"); ("seg_ext", VText "sci");
    ("magzp", VNum (fofZ 30)); ("scale", VNum (fofZ 1));
    ("image_shape", VShape [10000; 10000]); ("image_flags", VInt 0);
    ("crossra0", g_crossra0 g); ("udecmin", g_udecmin g); ("udecmax", g_udecmax g);
    ("uramin", g_uramin g); ("uramax", g_uramax g) ].

(** [r] is the last row for the file [name]. *)
Definition last_row (rows : list (string * piff_row F)) (name : string) (r : piff_row F) : Prop :=
  exists a b, rows = a ++ (name, r) :: b /\ ~ In name (map fst b).

(** The quality entry that belongs to a source: none without a Piff model or
    without a campaign; else the row of the model's file. *)
Inductive quality (piff_rows : val F -> string -> result (list (string * piff_row F)))
  (ii : dict (val F)) : option string -> dict (val F) -> Prop :=
| no_model : forall c, dget ii "piff_path" = None \/ dget ii "piff_path" = Some VNone ->
    quality piff_rows ii c []
| no_campaign : quality piff_rows ii None []
| model_row : forall c p b e rows r,
    dget ii "piff_path" = Some (VText p) -> file_name p b ->
    dget ii "expnum" = Some e -> piff_rows e c = Ok rows -> last_row rows b r ->
    quality piff_rows ii (Some c) [("piff_info", VPiff r)].
End S.
