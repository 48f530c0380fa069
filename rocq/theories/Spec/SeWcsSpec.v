(** Vocabulary for the coordinates of a single-epoch image. *)
From Coq Require Import ZArith List Bool String Reals.
From Coq Require Import List.
From Verif Require Import Lib.Base Lib.Floats Model.Affine Model.SeWcs.
Import ListNotations.

Section S.
Context {F : Type} {FO : FloatOps F}.

(** What the WCS object itself gives, in its own pixel convention. *)
Definition own_sky (w : wcs F) (color x y : F) : result (F * F) :=
  match w with
  | Esutil i2s _ _ => i2s x y
  | AffineW a => Ok (image2sky a x y)
  | Galsim true to_radec _ _ => to_radec color x y
  | Galsim false _ _ _ => Raise AssertionError
  | OtherWcs => Raise ValueError
  end.

Definition own_image (w : wcs F) (color ra dec : F) : result (F * F) :=
  match w with
  | Esutil _ s2i _ => s2i ra dec
  | AffineW a => Ok (sky2image a ra dec)
  | Galsim true _ to_xy _ => to_xy color ra dec
  | Galsim false _ _ _ => Raise AssertionError
  | OtherWcs => Raise ValueError
  end.

(** The exception for a WCS that cannot be used at all. *)
Definition unusable (w : wcs F) : option pyexc :=
  match w with
  | Galsim false _ _ _ => Some AssertionError
  | OtherWcs => Some ValueError
  | _ => None
  end.

(** [back] undoes [there]. *)
Definition undoes (back there : F -> F -> result (F * F)) : Prop :=
  forall x y p, there x y = Ok p -> back (fst p) (snd p) = Ok (x, y).

(** The answer [a], [b] to vectors [xs], [ys] is made of the answers to their
    elements. *)
Definition answers_elements (f : coords F -> coords F -> result (coords F * coords F))
  (xs ys a b : list F) : Prop :=
  length xs = length ys /\ length a = length xs /\ length b = length xs /\
  forall i x y, nth_error xs i = Some x -> nth_error ys i = Some y ->
    exists p q, nth_error a i = Some p /\ nth_error b i = Some q /\
      f (Scalar x) (Scalar y) = Ok (Scalar p, Scalar q).
End S.

Open Scope string_scope.

(** Where the WCS and the PSF model of a single-epoch image come from. *)
Section From.
Context {F P : Type}.
Variables (load_image_wcs : string -> string -> result (wcs F))
          (load_head_wcs : string -> string -> string -> result (wcs F))
          (load_piff : string -> Z -> result (P * wcs F))
          (load_psfex : string -> result P)
          (get_image_shape : string -> string -> result (Z * Z))
          (si : @source F P).

Inductive wcs_from : choice (wcs F) -> wcs F -> Prop :=
| wcs_given : forall w, wcs_from (Object w) w
| wcs_image : forall p e w, s_image_path si = Some p -> s_image_ext si = Some e ->
    load_image_wcs p e = Ok w -> wcs_from (Name "image") w
| wcs_head : forall h p e w, s_head_path si = Some h -> s_image_path si = Some p ->
    s_image_ext si = Some e -> load_head_wcs h p e = Ok w -> wcs_from (Name "head") w
| wcs_affine : forall a, s_affine_wcs si = Some a -> wcs_from (Name "affine") (AffineW a)
| wcs_pixmappy : forall p k m w, s_piff_path si = Some p -> s_ccdnum si = Some k ->
    load_piff p k = Ok (m, w) -> wcs_from (Name "pixmappy") w.

Inductive psf_from : choice P -> P -> Prop :=
| psf_given : forall m, psf_from (Object m) m
| psf_galsim : forall m, s_galsim_psf si = Some m -> psf_from (Name "galsim") m
| psf_psfex : forall p m, s_psfex_path si = Some p -> load_psfex p = Ok m ->
    psf_from (Name "psfex") m
| psf_piff : forall p k m w, s_piff_path si = Some p -> s_ccdnum si = Some k ->
    load_piff p k = Ok (m, w) -> psf_from (Name "piff") m.

(** The recorded shape is used if there is one; else the file is asked. *)
Inductive shape_from : Z * Z -> Prop :=
| shape_recorded : forall sh, s_image_shape si = Some sh -> shape_from sh
| shape_read : forall p e sh, s_image_shape si = None -> s_image_path si = Some p ->
    s_image_ext si = Some e -> get_image_shape p e = Ok sh -> shape_from sh.
End From.

Definition wcs_names : list string := ["image"; "head"; "affine"; "pixmappy"].
Definition psf_names : list string := ["galsim"; "psfex"; "piff"].

Open Scope R_scope.

(** [(x, y)] is on an image of [nrow] rows and [ncol] columns, or at most [m]
    pixels away from its pixel centres in each direction. *)
Definition near_image (nrow ncol : Z) (m x y : R) : Prop :=
  - m <= x <= IZR ncol - 1 + m /\ - m <= y <= IZR nrow - 1 + m.
