(** What has to be true of a tile for the history of a process not to matter. *)
From Coq Require Import ZArith List Bool String.
From Verif Require Import Lib.Base Lib.Floats Model.SeWcs Model.Epoch Model.Whole Model.Process Spec.SeWcsSpec.
Import ListNotations.

Section Identity.
Context {F : Type} {FO : FloatOps F} {P : Type}.
Variables (t : tile F P) (images : list (image F P)).

(** The texts of the image objects that a tile can produce. *)
Definition occurs (id : identity F P) : Prop :=
  exists i m W,
    In i images /\
    wcs_from (w_image_wcs (t_world t)) (w_head_wcs (t_world t)) (w_piff (t_world t)) (i_info i)
      (op_wcs (t_options t)) W /\
    psf_from (w_piff (t_world t)) (w_psfex (t_world t)) (i_info i) (op_psf (t_options t)) m /\
    id = mkidentity i m W (fofZ (i_offset i)) (op_color (t_options t)) (i_noise_seeds i)
           (op_tape_bumps (t_options t)).

(** Objects with equal hashes have the same WCS and the same position offset. *)
Definition hashes_tell_apart (hash : identity F P -> Z) : Prop :=
  forall id id', occurs id -> occurs id' -> hash id = hash id' ->
    id_wcs id = id_wcs id' /\ id_position_offset id = id_position_offset id'.

(** With tape bumps, images that have the same mask file come from the same CCD. *)
Definition masks_of_one_ccd : Prop :=
  op_tape_bumps (t_options t) = true ->
  forall i i', In i images -> In i' images -> i_bmask i = i_bmask i' -> i_ccdnum i = i_ccdnum i'.
End Identity.

(** Numbers that are equal as keys of a cache have the same square. *)
Definition squares_agree (F : Type) {FO : FloatOps F} : Prop :=
  forall a b : F, feqb a b = true -> fmul a a = fmul b b.

(** The same answer, or an exception in both cases (which one may differ). *)
Definition same_answer {A} (r r' : result A) : Prop :=
  match r, r' with
  | Ok a, Ok b => a = b
  | Raise _, Raise _ => True
  | _, _ => False
  end.
