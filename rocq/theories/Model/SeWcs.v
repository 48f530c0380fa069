(** Model of the coordinate methods and of the constructor of SEImageSlice,
    pizza_cutter/des_pizza_cutter/_se_image.py:519-614, 652-659 and 756-942. *)
From Coq Require Import ZArith List Bool String.
From Coq Require Import List.
From Verif Require Import Lib.Base Lib.Floats Model.Affine Model.SkyBounds Model.WcsGrid.
Import ListNotations.
Open Scope string_scope.
Open Scope list_scope.
Open Scope Z_scope.

Section SeWcs.
Context {F : Type} {FO : FloatOps F}.

(** The kinds of WCS objects that the methods tell apart: esutil's (with the
    subclass FastHashingWCS), AffineWCS, galsim's, and anything else. Those of
    esutil and galsim are given by what they do with one position; they treat
    arrays element by element. The first argument of the functions of galsim is
    the colour. *)
Inductive wcs : Type :=
| Esutil (i2s s2i : F -> F -> result (F * F)) (jac : F -> F -> result (F * F * F * F))
| AffineW (a : affine F)
| Galsim (celestial : bool) (to_radec to_xy : F -> F -> F -> result (F * F))
         (local : F -> F -> F -> result (F * F * F * F))
| OtherWcs.

(** An argument: np.ndim 0, 1, or more. *)
Inductive coords : Type :=
| Scalar (x : F)
| Vector (l : list F)
| Array.

Definition ndim (c : coords) : Z :=
  match c with Scalar _ => 0 | Vector _ => 1 | Array => 2 end.

(** [np.atleast_1d(x).ravel()]. *)
Definition ravel1 (c : coords) : list F :=
  match c with Scalar x => [x] | Vector l => l | Array => [] end.

(** The attributes used below, 533-535 and 583. *)
Record slice_wcs := mksw { sw_wcs : wcs; sw_offset : F; sw_color : F }.

Fixpoint map2_result {A} (f : F -> F -> result A) (xs ys : list F) : result (list A) :=
  match xs, ys with
  | [], [] => Ok []
  | x :: xs, y :: ys => a <- f x y ;; l <- map2_result f xs ys ;; Ok (a :: l)
  | _, _ => Raise ValueError
  end.

(** 775-778 and 828-831. *)
Definition is_scalar (x y : coords) : bool := (ndim x =? 0) && (ndim y =? 0).

(** 804-807 and 860-863; [ra[0]] of an empty array is an IndexError. *)
Definition answer (scalar : bool) (l : list (F * F)) : result (coords * coords) :=
  if scalar then
    match l with
    | (a, b) :: _ => Ok (Scalar a, Scalar b)
    | [] => Raise IndexError
    end
  else Ok (Vector (map fst l), Vector (map snd l)).

(** One position, 788-802. *)
Definition image2sky1 (s : slice_wcs) (x y : F) : result (F * F) :=
  match sw_wcs s with
  | Esutil i2s _ _ => i2s (fadd x (sw_offset s)) (fadd y (sw_offset s))
  | AffineW a => Ok (Affine.image2sky a (fadd x (sw_offset s)) (fadd y (sw_offset s)))
  | Galsim celestial to_radec _ _ =>
      if celestial then to_radec (sw_color s) (fadd x (sw_offset s)) (fadd y (sw_offset s))
      else Raise AssertionError
  | OtherWcs => Raise ValueError
  end.

(** One position, 841-858. *)
Definition sky2image1 (s : slice_wcs) (ra dec : F) : result (F * F) :=
  match sw_wcs s with
  | Esutil _ s2i _ =>
      ' (x, y) <- s2i ra dec ;; Ok (fsub x (sw_offset s), fsub y (sw_offset s))
  | AffineW a =>
      let '(x, y) := Affine.sky2image a ra dec in
      Ok (fsub x (sw_offset s), fsub y (sw_offset s))
  | Galsim celestial _ to_xy _ =>
      if celestial then
        ' (x, y) <- to_xy (sw_color s) ra dec ;; Ok (fsub x (sw_offset s), fsub y (sw_offset s))
      else Raise AssertionError
  | OtherWcs => Raise ValueError
  end.

(** What these raise before any position is looked at: also for empty arrays. *)
Definition kind_check (s : slice_wcs) : result unit :=
  match sw_wcs s with
  | Galsim false _ _ _ => Raise AssertionError
  | OtherWcs => Raise ValueError
  | _ => Ok tt
  end.

(** 756-807 [image2sky] and 809-863 [sky2image]. Vectors of different lengths are
    an error here (numpy would repeat a vector of length one). *)
Definition se_method (f : F -> F -> result (F * F)) (s : slice_wcs) (x y : coords)
  : result (coords * coords) :=
  if negb ((ndim x <=? 1) && (ndim y <=? 1)) then Raise AssertionError
  else if negb (ndim x =? ndim y) then Raise AssertionError
  else
    _ <- kind_check s ;;
    l <- map2_result f (ravel1 x) (ravel1 y) ;;
    answer (is_scalar x y) l.

Definition se_image2sky (s : slice_wcs) (x y : coords) := se_method (image2sky1 s) s x y.
Definition se_sky2image (s : slice_wcs) (ra dec : coords) := se_method (sky2image1 s) s ra dec.

(** 902-942 [get_wcs_jacobian]. *)
Definition se_jacobian (s : slice_wcs) (x y : coords) : result (F * F * F * F) :=
  match x, y with
  | Scalar x, Scalar y =>
      let x := fadd x (sw_offset s) in
      let y := fadd y (sw_offset s) in
      match sw_wcs s with
      | Esutil _ _ jac => jac x y
      | AffineW a => Ok (affine_jacobian a x y)
      | Galsim _ _ _ local => local (sw_color s) x y
      | OtherWcs => Raise ValueError
      end
  | _, _ => Raise AssertionError
  end.

(** 652-659 [is_celestial]. The WCSs of galsim are either EuclideanWCS or
    CelestialWCS. *)
Definition is_celestial (w : wcs) : bool :=
  match w with
  | AffineW _ => false
  | Galsim celestial _ _ _ => celestial
  | _ => true
  end.

(** 595-599 [_wcs_is_celestial]. *)
Definition wcs_is_celestial (w : wcs) : bool :=
  match w with
  | AffineW _ => false
  | Galsim celestial _ _ _ => if negb celestial then false else true
  | _ => true
  end.

(** [image2sky] of the object, where it is known not to raise. *)
Definition known_sky (s : slice_wcs) (x y : F) : F * F :=
  match image2sky1 s x y with Ok p => p | Raise _ => (fzero, fzero) end.

(** 865-900 [get_wcs_pixel_area] at one position, with the calls of [image2sky]
    in _compute_wcs_area (171-175). None: see Model/WcsGrid.v. *)
Definition se_pixel_area (s : slice_wcs) (cos : F -> F) (d2r : F) (fuel : nat) (x y : F)
  : result (option F) :=
  _ <- image2sky1 s x y ;;
  _ <- image2sky1 s (fadd x fone) y ;;
  _ <- image2sky1 s (fsub x fone) y ;;
  _ <- image2sky1 s x (fadd y fone) ;;
  _ <- image2sky1 s x (fsub y fone) ;;
  Ok (compute_wcs_area (known_sky s) (is_celestial (sw_wcs s)) cos d2r fuel x y fone).

(** ** The constructor *)
Section Init.
Context {P : Type}.

(** Keys of [source_info] that the constructor reads; None if missing. *)
Record source := mksrc {
  s_image_path : option string;
  s_image_ext : option string;
  s_head_path : option string;
  s_piff_path : option string;
  s_ccdnum : option Z;
  s_psfex_path : option string;
  s_affine_wcs : option (affine F);
  s_galsim_psf : option P;
  s_image_shape : option (Z * Z)
}.

(** [source_info[key]]. *)
Definition need {A} (o : option A) : result A :=
  match o with Some a => Ok a | None => Raise KeyError end.

(** A name or an object. *)
Inductive choice (A : Type) : Type := Name (s : string) | Object (a : A).
Arguments Name {A} s.
Arguments Object {A} a.

(** The loaders, 61-68 and 230-328 without their caches (Model/Cache.v). *)
Variables (load_image_wcs : string -> string -> result wcs)
          (load_head_wcs : string -> string -> string -> result wcs)
          (load_piff : string -> Z -> result (P * wcs))
          (load_psfex : string -> result P)
          (get_image_shape : string -> string -> result (Z * Z)).

(** 540-565. *)
Definition choose_wcs (si : source) (c : choice wcs) : result wcs :=
  match c with
  | Object w => Ok w
  | Name n =>
      if String.eqb n "image" then
        p <- need (s_image_path si) ;; e <- need (s_image_ext si) ;; load_image_wcs p e
      else if String.eqb n "head" then
        h <- need (s_head_path si) ;; p <- need (s_image_path si) ;; e <- need (s_image_ext si) ;;
        load_head_wcs h p e
      else if String.eqb n "affine" then
        a <- need (s_affine_wcs si) ;; Ok (AffineW a)
      else if String.eqb n "pixmappy" then
        p <- need (s_piff_path si) ;; k <- need (s_ccdnum si) ;;
        res <- load_piff p k ;; Ok (snd res)
      else Raise RuntimeError
  end.

(** 567-579. *)
Definition choose_psf (si : source) (c : choice P) : result P :=
  match c with
  | Object m => Ok m
  | Name n =>
      if String.eqb n "galsim" then need (s_galsim_psf si)
      else if String.eqb n "psfex" then p <- need (s_psfex_path si) ;; load_psfex p
      else if String.eqb n "piff" then
        p <- need (s_piff_path si) ;; k <- need (s_ccdnum si) ;;
        res <- load_piff p k ;; Ok (fst res)
      else Raise RuntimeError
  end.

(** What the constructor leaves in the object. [b_*] of the CCD bounds are
    rowmin, rowmax, colmin, colmax, 614. *)
Record se_object := mkso {
  so_wcs : slice_wcs;
  so_psf : P;
  so_shape : Z * Z;
  so_celestial : bool;
  so_sky_bnds : bounds F;
  so_ra_ccd : F;
  so_dec_ccd : F;
  so_ccd_bnds : Z * Z * Z * Z
}.

Variable radec_to_uv : F -> F -> F -> F -> F * F.
Variable cosdeg : F -> F.

(** _sky_bounds.py:52-79: the calls of [wcs.image2sky], on the grid and at the
    centre. *)
Definition sky_calls (s : slice_wcs) (nrow ncol n_grid : Z) : result unit :=
  match grid_size (F := F) nrow ncol n_grid with
  | None => Raise ZeroDivisionError
  | Some (n_row, n_col) =>
      let pts := grid_points (grid_axis n_row nrow) (grid_axis n_col ncol) in
      _ <- se_image2sky s (Vector (map (fun rc => fadd (snd rc) fzero) pts))
                          (Vector (map (fun rc => fadd (fst rc) fzero) pts)) ;;
      _ <- se_image2sky s (Scalar (fadd (fdiv (fofZ (ncol - 1)) (fofZ 2)) fzero))
                          (Scalar (fadd (fdiv (fofZ (nrow - 1)) (fofZ 2)) fzero)) ;;
      Ok tt
  end.

(** 519-614. The buffer of 16 arcsec and the grid of 4 are in the code. *)
Definition init (si : source) (psf : choice P) (w : choice wcs) (offset color : F) : result se_object :=
  w <- choose_wcs si w ;;
  m <- choose_psf si psf ;;
  let s := mksw w offset color in
  (* 585-599 *)
  shape <- (match s_image_shape si with
            | Some sh => Ok sh
            | None => p <- need (s_image_path si) ;; e <- need (s_image_ext si) ;; get_image_shape p e
            end) ;;
  let celestial := wcs_is_celestial w in
  (* 601-611 *)
  _ <- sky_calls s (fst shape) (snd shape) 4 ;;
  ' (b, ra, dec) <- get_rough_sky_bounds (known_sky s) radec_to_uv cosdeg (fst shape) (snd shape)
                      fzero (fofZ 16) 4 celestial ;;
  Ok (mkso s m shape celestial b ra dec (0, fst shape - 1, 0, snd shape - 1)).

(** 944-985 [ccd_contains_radec] of the object at one position. *)
Definition se_contains_radec (o : se_object) (ra dec : F) : bool :=
  ccd_contains_radec radec_to_uv (so_sky_bnds o) (so_ra_ccd o) (so_dec_ccd o) (so_celestial o) ra dec.

End Init.
End SeWcs.
Arguments wcs : clear implicits.
Arguments coords : clear implicits.
Arguments Name {A} s.
Arguments Object {A} a.
