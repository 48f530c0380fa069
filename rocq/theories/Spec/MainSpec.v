(** What the finished output file must consist of. *)
From Coq Require Import ZArith List Bool String.
From Coq Require Import List.
From Verif Require Import Lib.Base Lib.Floats Lib.PyStr Model.SliceRange Model.ImageInfo Model.ObjectData
  Model.Writer Model.Metadata Model.Main Spec.MetadataSpec.
Import ListNotations.
Open Scope string_scope.
Open Scope list_scope.
Open Scope Z_scope.

Section S.
Context {F : Type} {FO : FloatOps F}.
Variables (V E E' Stars WCS : Type) (read_stars : string -> WCS -> Z -> result Stars).

(** The image extensions of the output [o] of the work on [num] slices: those of
    the layout, in its order and with its sizes. *)
Definition images_of_output (box psf_box n_extra num : Z) (o : @out F V E)
  (images : list (string * @content F V E' Stars)) : Prop :=
  Forall2 (fun lay x => let '(name, _, per) := lay in
             exists h, x = (name, CImage V E' Stars h) /\ o_fits V E o name = Some h /\ dim V h = num * per)
          (layout box psf_box n_extra) images.

(** The star catalogue, if one was configured. *)
Definition stars_of (stars : option string) (wcs : WCS) (offset : Z)
  (l : list (string * @content F V E' Stars)) : Prop :=
  match stars with
  | None => l = []
  | Some name => exists s, read_stars name wcs offset = Ok s /\ l = [("gaia_stars", CStars V E' Stars s)]
  end.

(** Row [k] of the object table: what was prepared and what the work has put in. *)
Definition object_rows (objs : list (@object F)) (o : @out F V E) (rows : list (@object F * @obj F)) : Prop :=
  length rows = length objs /\
  forall k ob, nth_error objs k = Some ob -> nth_error rows k = Some (ob, o_obj V E o (Z.of_nat k)).
End S.
