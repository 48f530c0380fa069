(** What the metadata of a file and the layout of its image extensions must be. *)
From Coq Require Import ZArith List Bool String.
From Coq Require Import List.
From Verif Require Import Lib.Base Lib.PyStr Lib.PyDict Model.Metadata.
Import ListNotations.
Open Scope string_scope.
Open Scope list_scope.
Open Scope Z_scope.

(** The value of an environment variable, empty if it is not set. *)
Definition env_or_empty (env : string -> option text) (k : string) : text :=
  match env k with Some v => v | None => [] end.

(** The texts that are recorded, by column. *)
Definition recorded (env : string -> option text) (ver : string -> text) (config : text)
  : list (string * text) :=
  ("config", config) ::
  map (fun k => (k, ver k))
    ["pizza_cutter_version"; "numpy_version"; "scipy_version"; "esutil_version"; "ngmix_version";
     "fitsio_version"; "piff_version"; "pixmappy_version"; "desmeds_version"; "meds_version";
     "meds_fmt_version"] ++
  [("meds_dir", env_or_empty env "MEDS_DIR"); ("piff_data_dir", env_or_empty env "PIFF_DATA_DIR");
   ("desdata", env_or_empty env "DESDATA")].

(** The text does not end in a NUL character. *)
Definition no_final_nul (t : text) : Prop := forall t', t <> t' ++ [0].

Definition ascii_text (t : text) : Prop := forall c, In c t -> 0 <= c < 128.

(** The image extensions, in order: name, type, pixels per slice. *)
Definition layout (box psf_box n_extra : Z) : list (string * string * Z) :=
  [ ("image_cutouts", "f4", box ^ 2); ("weight_cutouts", "f4", box ^ 2); ("seg_cutouts", "i4", box ^ 2);
    ("bmask_cutouts", "i4", box ^ 2); ("ormask_cutouts", "i4", box ^ 2); ("noise_cutouts", "f4", box ^ 2);
    ("mfrac_cutouts", "f4", box ^ 2) ] ++
  map (fun k => ("noise" ++ dec (Z.of_nat k) ++ "_cutouts", "f4", box ^ 2))%string (seq 1 (Z.to_nat n_extra)) ++
  [ ("psf", "f4", psf_box ^ 2) ].

(** The compression keywords [d'] of an extension with [per] pixels per slice:
    those configured, and a tile for each slice unless tiles were configured. *)
Definition keywords (d : dict string) (per : Z) (d' : dict string) : Prop :=
  (forall k, k <> "FZTILE" -> dget d' k = dget d k) /\
  dget d' "FZTILE" = match dget d "FZTILE" with
                     | Some t => Some t
                     | None => Some ("(" ++ dec per ++ ",1)")%string
                     end.
