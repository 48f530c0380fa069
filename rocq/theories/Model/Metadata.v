(** Model of _build_metadata, _pizza_cutter.py:987-1031, of the compression
    keywords of _reserve_images, 686-732, and of _hash_to_int, 63-69. *)
From Coq Require Import ZArith List Bool String.
From Coq Require Import List.
From Verif Require Import Lib.Base Lib.Floats Lib.PyStr Lib.PyDict Model.Writer.
Import ListNotations.
Open Scope string_scope.
Open Scope list_scope.
Open Scope Z_scope.

(** A Python text, by its code points. *)
Definition text : Type := list Z.

(** A column of numpy type 'U%d' with one row: the width and the stored code
    points, as many as the width, zeros at the end. *)
Record ucol := mkucol { uc_width : nat; uc_cells : list Z }.

Definition ucol_zero (n : nat) : ucol := mkucol n (repeat 0 n).

(** Assignment cuts a longer text and fills up a shorter one. *)
Definition ucol_set (c : ucol) (t : text) : ucol :=
  mkucol (uc_width c) (firstn (uc_width c) t ++ repeat 0 (uc_width c - length t)).

(** Reading drops the zeros at the end. *)
Fixpoint drop_zeros (l : list Z) : list Z :=
  match l with
  | 0 :: rest => drop_zeros rest
  | _ => l
  end.
Definition ucol_get (c : ucol) : text := rev (drop_zeros (rev (uc_cells c))).

Section Metadata.
Context {F : Type} {FO : FloatOps F}.

Record metadata := mkmeta { md_magzp_ref : F; md_cols : dict ucol }.

(** metadata[k] = t; all names that are used are columns. *)
Definition meta_set (m : dict ucol) (k : string) (t : text) : dict ucol :=
  match dget m k with Some c => dset m k (ucol_set c t) | None => m end.

(** json_info.encode("ascii"); UnicodeEncodeError is a ValueError. frombuffer
    with 'u1' gives one number per byte. *)
Definition encode_ascii (t : text) : result (list Z) :=
  if forallb (fun c => (0 <=? c) && (c <? 128)) t then Ok t else Raise ValueError.

(** os.environ.get(k, d). *)
Definition getenv (env : string -> option text) (k : string) (d : text) : text :=
  match env k with Some v => v | None => d end.

(** [ver name] is the text of the version called [name] in the table. *)
Definition build_metadata (env : string -> option text) (ver : string -> text)
  (config json_info : text) : result (metadata * list Z) :=
  md <- match env "MEDS_DIR" with Some v => Ok v | None => Raise KeyError end ;;
  let dt := [ ("config", length config);
              ("pizza_cutter_version", length (ver "pizza_cutter_version"));
              ("numpy_version", length (ver "numpy_version"));
              ("scipy_version", length (ver "scipy_version"));
              ("esutil_version", length (ver "esutil_version"));
              ("ngmix_version", length (ver "ngmix_version"));
              ("fitsio_version", length (ver "fitsio_version"));
              ("piff_version", length (ver "piff_version"));
              ("pixmappy_version", length (ver "pixmappy_version"));
              ("desmeds_version", length (ver "desmeds_version"));
              ("meds_version", length (ver "meds_version"));
              ("meds_fmt_version", length (ver "meds_fmt_version"));
              ("meds_dir", length md);
              ("piff_data_dir", length (getenv env "PIFF_DATA_DIR" [32]));
              ("desdata", length (getenv env "DESDATA" [32])) ] in
  let m := map (fun kn => (fst kn, ucol_zero (snd kn))) dt in
  let m := meta_set m "config" config in
  let m := meta_set m "numpy_version" (ver "numpy_version") in
  let m := meta_set m "scipy_version" (ver "scipy_version") in
  let m := meta_set m "esutil_version" (ver "esutil_version") in
  let m := meta_set m "ngmix_version" (ver "ngmix_version") in
  let m := meta_set m "fitsio_version" (ver "fitsio_version") in
  let m := meta_set m "piff_version" (ver "piff_version") in
  let m := meta_set m "pixmappy_version" (ver "pixmappy_version") in
  let m := meta_set m "desmeds_version" (ver "desmeds_version") in
  let m := meta_set m "meds_version" (ver "meds_version") in
  let m := meta_set m "meds_fmt_version" (ver "meds_fmt_version") in
  let m := meta_set m "pizza_cutter_version" (ver "pizza_cutter_version") in
  let m := meta_set m "meds_dir" md in
  let m := meta_set m "piff_data_dir" (getenv env "PIFF_DATA_DIR" []) in
  let m := meta_set m "desdata" (getenv env "DESDATA" []) in
  b <- encode_ascii json_info ;;
  Ok (mkmeta (fofZ 30) m, b).

End Metadata.

(** ** Compression *)

(** The keywords of one extension, 718-721, and what of them goes into its
    header: None, nothing. The configured keywords are copied first, so they do
    not change. [per] is the number of pixels of a slice in the extension. *)
Definition ext_pars (fpack_pars : option (dict string)) (per : Z) : option (dict string) :=
  match fpack_pars with
  | None => None
  | Some d => match dget d "FZTILE" with
              | Some _ => Some d
              | None => Some (dset d "FZTILE" ("(" ++ dec per ++ ",1)")%string)
              end
  end.

(** CUTOUT_DTYPES, _constants.py:43-52. *)
Definition cutout_dtype (ext : string) : result string :=
  match dget [("image_cutouts", "f4"); ("weight_cutouts", "f4"); ("seg_cutouts", "i4");
              ("bmask_cutouts", "i4"); ("ormask_cutouts", "i4"); ("noise_cutouts", "f4");
              ("psf", "f4"); ("mfrac_cutouts", "f4")] ext with
  | Some t => Ok t
  | None => Raise KeyError
  end.

(** The arguments of create_image_hdu for one extension after the other, 706-728:
    name, type, number of pixels, keywords. *)
Fixpoint reserve_loop (extra : list string) (fpack_pars : option (dict string)) (l : list (string * Z * Z))
  : result (list (string * string * Z * option (dict string))) :=
  match l with
  | [] => Ok []
  | (ext, d, per) :: rest =>
      let ext_info := if existsb (String.eqb ext) extra then NOISE_EXT else ext in
      t <- cutout_dtype ext_info ;;
      more <- reserve_loop extra fpack_pars rest ;;
      Ok ((ext, t, d, ext_pars fpack_pars per) :: more)
  end.

(** 690-710. *)
Definition reserve_calls (n_pixels n_pixels_psf : Z) (fpack_pars : option (dict string))
  (n_extra n_pixels_per n_pixels_psf_per : Z)
  : result (list (string * string * Z * option (dict string))) :=
  let extra := map (fun i => noise_ext (i + 1)) (zrange 0 n_extra) in
  let names := [IMAGE_EXT; WEIGHT_EXT; SEG_EXT; BMASK_EXT; ORMASK_EXT; NOISE_EXT; MFRAC_EXT] ++ extra in
  let dims := repeat n_pixels (length names) ++ [n_pixels_psf] in
  let dims_per := repeat n_pixels_per (length names) ++ [n_pixels_psf_per] in
  let names := names ++ [PSF_EXT] in
  reserve_loop extra fpack_pars (combine (combine names dims) dims_per).

(** _hash_to_int, 63-69; [h] is the number given by sha1. *)
Definition hash_to_int (h : Z) : Z := Z.min (Z.max 1 (Z.abs h mod 10 ^ 4)) 9999.
